(** Bounds on the memory reported by tries and label stores. *)
From Verif.Proofs Require Export SumP.
From Verif.Proofs Require PlainFkP PlainBonsaiP.
Local Open Scope N_scope.

Lemma mul64_le a b : mul64 a b <= a * b. Proof. apply w64_le. Qed.
Lemma add64_le a b : add64 a b <= a + b. Proof. apply w64_le. Qed.

(** ** Vectors *)
Lemma cv_bytes_ok cv b w : cv_wf cv -> cv_size cv = 2 ^ b -> cv_width cv = w -> 6 <= b ->
  8 * cv_bytes cv = 2 ^ b * w /\ cv_bytes cv < 2 ^ 61.
Proof.
  intros Hwf Hs Hw Hb. pose proof (cw_len _ Hwf) as Hl. pose proof (cw_bits _ Hwf) as Hbits. rewrite Hs, Hw in Hl, Hbits.
  assert (E : 2 ^ b * w = 64 * (2 ^ (b - 6) * w)).
  { replace b with (6 + (b - 6)) at 1 by lia. rewrite N.pow_add_r. change (2 ^ 6) with 64. lia. }
  rewrite E in Hl, Hbits. rewrite E. set (x := 2 ^ (b - 6) * w) in *.
  assert (Hv : vlen (cv_chunks cv) = x).
  { rewrite Hl. replace (64 * x + 63) with (63 + x * 64) by lia. rewrite N.div_add by lia. reflexivity. }
  unfold cv_bytes, mul64. rewrite Hv. change (2 ^ 64) with (2 ^ 61 * 8) in Hbits.
  rewrite w64_small by (change (2 ^ 64) with (2 ^ 61 * 8); lia). split; lia.
Qed.

(** ** The auxiliary tables of the compact tries *)
Lemma pow_mix c n w : 1 <= w -> 2 ^ c * (n + w) <= 2 ^ (c + n) * w.
Proof.
  intros Hw. rewrite N.pow_add_r, <- N.mul_assoc. apply N.mul_le_mono_l.
  assert (Hn : n + 1 <= 2 ^ n).
  { induction n as [|n IH] using N.peano_ind; [reflexivity|]. rewrite N.pow_succ_r'. lia. }
  transitivity ((n + 1) * w); [|apply N.mul_le_mono_r, Hn]. nia.
Qed.
Lemma ch_bytes_le {HB : bij_hasher} vb mf b t m : 1 <= vb <= 16 -> 1 <= mf <= 99 -> ChtSetP.fits vb b -> ch_inv vb mf b t m ->
  8 * ch_bytes t <= 2 ^ b * (vb + 2) /\ ch_bytes t < 2 ^ 61 /\ 2 ^ 12 * (b - 12 + vb + 2) <= 8 * ch_bytes t.
Proof.
  intros Hvb Hmf Hf [c I]. pose proof (ci_c _ _ _ _ _ _ I) as Hc.
  pose proof (inv_shape vb mf b Hf c t m I) as Hs.
  destruct (cv_bytes_ok (ch_table t) c (b - c + vb + 2)) as [E1 E2]; try (apply Hs); [lia|].
  unfold ch_bytes. split; [|split; [exact E2|]].
  2:{ rewrite E1. pose proof (pow_mix 12 (c - 12) (b - c + vb + 2) ltac:(lia)) as H. replace (12 + (c - 12)) with c in H by lia.
      replace (c - 12 + (b - c + vb + 2)) with (b - 12 + vb + 2) in H by lia. exact H. }
  rewrite E1. pose proof (pow_mix c (b - c) (vb + 2) ltac:(lia)) as H.
  replace (c + (b - c)) with b in H by lia. rewrite N.add_assoc in H. exact H.
Qed.
Lemma st_bytes_le {HF : plain_hasher} mf t m n : 51 <= mf <= 99 -> st_snug mf t m -> N.of_nat (size m) <= n ->
  st_bytes t <= 16 * N.max 64 (200 * (n + 8) / mf) /\ st_bytes t < 2 ^ 62.
Proof.
  intros Hmf [[-> _]|(b & (Hr & _) & Hb)] Hn.
  - change (st_bytes st_default) with 0. split; [lia|reflexivity].
  - pose proof (sr_b _ _ _ Hr) as Hb57. unfold st_bytes, mul64. rewrite (sr_len _ _ _ Hr).
    pose proof (pow2_le b 57 ltac:(lia)) as Hp. assert (H16 : 2 ^ b * 16 < 2 ^ 62).
    { apply N.le_lt_trans with (2 ^ 57 * 16); [lia|reflexivity]. }
    rewrite w64_small by (eapply N.lt_trans; [exact H16|reflexivity]). split; [|exact H16].
    rewrite N.mul_comm. apply N.mul_le_mono_l. destruct Hb as [->|[H6 Ht]]; [change (2 ^ 6) with 64; lia|].
    eapply N.le_trans; [|apply N.le_max_r]. apply N.div_le_lower_bound; [lia|].
    pose proof (max_size_near (b - 1) mf ltac:(lia) ltac:(lia)) as Hx.
    replace b with ((b - 1) + 1) at 1 by lia. rewrite pow2_succ. lia.
Qed.
Lemma dt_bytes_le {HT : trie_hashers} P b sb d mc ms n : dp_ok P -> dt_rep P b sb d mc ms -> N.of_nat (size mc) + N.of_nat (size ms) <= n ->
  2 ^ b * (sb + dp_d1 P) + 2 ^ 12 * (b - 12 + dp_vb P + 2) <= 8 * dt_bytes d /\
  8 * dt_bytes d <= 2 ^ b * (sb + dp_d1 P + (dp_vb P + 2)) + 8 * (16 * N.max 64 (200 * (n + 8) / dp_smf P)) /\
  dt_bytes d < 2 ^ 63.
Proof.
  intros HP [Hs Ha _] Hn. pose proof (ds_b _ _ _ _ Hs) as Hb.
  destruct (cv_bytes_ok (dt_table d) b (sb + dp_d1 P)) as [E1 E2]; try (apply Hs); [lia|].
  destruct (ch_bytes_le (dp_vb P) (dp_cmf P) b (dt_cht d) mc) as (C1 & C2 & C3).
  { apply HP. } { apply HP. } { apply (fits_b P HP b Hb). } { apply Ha. }
  destruct (st_bytes_le (HF := th_map) (dp_smf P) (dt_map d) ms n) as [S1 S2]; [apply HP|apply Ha|lia|].
  change (2 ^ 62) with (2 ^ 61 * 2) in S2. change (2 ^ 63) with (2 ^ 61 * 4).
  assert (H64 : forall x, x < 2 ^ 61 * 4 -> x < 2 ^ 64) by (intros x Hx; change (2 ^ 64) with (2 ^ 61 * 8); lia).
  unfold dt_bytes, add64. rewrite (w64_small (cv_bytes _ + _)) by (apply H64; lia).
  rewrite w64_small by (apply H64; lia). rewrite (N.mul_add_distr_l (2 ^ b) (sb + dp_d1 P)).
  set (z := 2 ^ 12 * _) in *. clearbody z. lia.
Qed.

(** ** Tries *)
Lemma pb_bytes_ok mf b sb t : pb_shape mf b sb t -> 8 * pb_bytes t = 2 ^ b * (b + sb).
Proof.
  intros Hs. pose proof (ps_b _ _ _ _ Hs). apply (cv_bytes_ok (pb_table t) b (b + sb)); try (apply Hs). lia.
Qed.
Lemma pf_bytes_ok mf b sb t : PlainFkP.pf_shape mf b sb t -> 8 * pf_bytes t = 2 ^ b * (b + sb + b).
Proof.
  intros Hs. pose proof (PlainFkP.fs_b _ _ _ _ Hs).
  destruct (cv_bytes_ok (pf_table t) b (b + sb)) as [E1 E2]; try (apply Hs); [lia|].
  destruct (cv_bytes_ok (pf_ids t) b b) as [F1 F2]; try (apply Hs); [lia|].
  unfold pf_bytes, add64. rewrite w64_small by (change (2 ^ 64) with (2 ^ 61 * 8); lia).
  rewrite (N.mul_add_distr_l (2 ^ b) (b + sb)). lia.
Qed.
Lemma cf_bytes_le {HT : trie_hashers} P mf b sb t mc ms n : dp_ok P -> cf_shape P mf b sb t mc ms -> N.of_nat (size mc) + N.of_nat (size ms) <= n ->
  2 ^ b * (sb + dp_d1 P + b) + 2 ^ 12 * (b - 12 + dp_vb P + 2) <= 8 * cf_bytes t /\
  8 * cf_bytes t <= 2 ^ b * (sb + dp_d1 P + b + (dp_vb P + 2)) + 8 * (16 * N.max 64 (200 * (n + 8) / dp_smf P)).
Proof.
  intros HP Hs Hn. destruct (dt_bytes_le P b sb (cf_dt t) mc ms n HP) as (H1 & H2 & H3); [apply Hs|exact Hn|].
  pose proof (ds_b _ _ _ _ (dr_shape _ _ _ _ _ _ (ys_rep _ _ _ _ _ _ _ Hs))) as Hb.
  destruct (cv_bytes_ok (cf_ids t) b b) as [F1 F2]; try (apply Hs); [lia|].
  change (2 ^ 63) with (2 ^ 61 * 4) in H3.
  unfold cf_bytes, add64. rewrite w64_small by (change (2 ^ 64) with (2 ^ 61 * 8); lia).
  set (z := 2 ^ 12 * _) in *. clearbody z. rewrite !N.mul_add_distr_l in *. lia.
Qed.

(** ** Label stores *)
Definition lsum (vs : nat) (i : inst) (lab : labmap) : N := msum (fun _ x => key_bytes vs i (fst x)) lab.
Lemma link_sum loc lab m (c1 c2 : list N * list N -> N) : link loc lab m ->
  (forall x f, m !! x = Some f -> c1 f <= c2 f) -> msum (fun _ => c1) m <= msum (fun _ => c2) lab.
Proof.
  intros Hl Hc. apply (msum_le _ _ (fun x q => loc !! q = Some x)).
  - intros x f Hx. destruct (lk_q _ _ _ Hl x f Hx) as [q Hq]. exists q, f. split; [exact Hq|].
    rewrite <- (lk_m _ _ _ Hl q x Hq). split; [exact Hx|]. apply (Hc x f Hx).
  - intros x y q _ _ H1 H2. congruence.
Qed.
Definition inj_loc (loc : locmap) : Prop := forall p q x, loc !! p = Some x -> loc !! q = Some x -> p = q.
Lemma inj_loc_empty : inj_loc ∅.
Proof. intros p q x E. rewrite lookup_empty in E. discriminate. Qed.
Lemma msum_const {K} `{Countable K} {A} (a : N) (m : gmap K A) : msum (fun _ _ => a) m = a * N.of_nat (size m).
Proof.
  induction m as [|k x m E IH] using map_ind; [rewrite map_size_empty, msum_empty; lia|].
  rewrite msum_insert, map_size_insert_None by exact E. lia.
Qed.
Lemma link_values loc lab m (vs : nat) (c : list N * list N -> N) : inj_loc loc -> link loc lab m ->
  (forall x f, m !! x = Some f -> N.of_nat vs <= c f) -> N.of_nat vs * N.of_nat (size lab) <= msum (fun _ => c) m.
Proof.
  intros Hj Hl Hc. rewrite <- msum_const.
  apply (msum_le _ _ (fun q x => loc !! q = Some x)).
  - intros q f Hq. destruct (lk_lab _ _ _ Hl q f Hq) as [x Hx]. exists x, f. split; [exact Hx|].
    rewrite (lk_m _ _ _ Hl q x Hx). split; [exact Hq|]. apply (Hc x). rewrite (lk_m _ _ _ Hl q x Hx). exact Hq.
  - intros q q' x _ _ H1 H2. exact (Hj q q' x H1 H2).
Qed.
Lemma link_sum_ge loc lab m (c : list N * list N -> N) : inj_loc loc -> link loc lab m -> msum (fun _ => c) lab <= msum (fun _ => c) m.
Proof.
  intros Hj Hl. apply (msum_le _ _ (fun q x => loc !! q = Some x)).
  - intros q f Hq. destruct (lk_lab _ _ _ Hl q f Hq) as [x Hx]. exists x, f. split; [exact Hx|].
    rewrite (lk_m _ _ _ Hl q x Hx). split; [exact Hq|reflexivity].
  - intros q q' x _ _ H1 H2. exact (Hj q q' x H1 H2).
Qed.
Lemma link_empty : link ∅ ∅ ∅.
Proof. split; intros ? ?; rewrite lookup_empty; discriminate. Qed.

Lemma add64_eq a b : a + b < 2 ^ 64 -> add64 a b = a + b. Proof. apply w64_small. Qed.
Lemma mul64_eq a b : a * b < 2 ^ 64 -> mul64 a b = a * b. Proof. apply w64_small. Qed.
Lemma pbn_alloc_le vs b n m : pbn_rep vs (2 ^ b) n m ->
  let u := 2 ^ b * 8 + msum (fun _ f => N.of_nat (length (fst f)) + N.of_nat vs) m in
  pbn_alloc n <= u /\ (u < 2 ^ 64 -> pbn_alloc n = u).
Proof.
  intros (Hl & R & _) u. unfold pbn_alloc. pose proof (add64_le (mul64 (vlen (pbn_ptrs n)) 8) (pbn_bytes n)) as H1.
  pose proof (mul64_le (vlen (pbn_ptrs n)) 8) as H2. rewrite Hl in *.
  pose proof (pr_bytes _ _ _ _ _ R) as H3. rewrite (prep_total _ _ _ _ _ R) in H3.
  match type of H3 with _ = w64 ?s => pose proof (w64_le s) as H4; set (S := s) in * end. subst u. split; [lia|].
  intros Hu. rewrite H3, (w64_small S), mul64_eq, add64_eq by lia. lia.
Qed.
Lemma pfn_alloc_le vs cap c n m : pfn_rep vs c n m ->
  let u := 8 * cap + msum (fun _ f => N.of_nat (length (fst f)) + N.of_nat vs) m in
  pfn_alloc cap n <= u /\ (u < 2 ^ 64 -> pfn_alloc cap n = u).
Proof.
  intros (_ & R) u. unfold pfn_alloc. pose proof (add64_le (mul64 cap 8) (pfn_bytes n)) as H1.
  pose proof (mul64_le cap 8) as H2.
  pose proof (pr_bytes _ _ _ _ _ R) as H3. rewrite (prep_total _ _ _ _ _ R) in H3.
  match type of H3 with _ = w64 ?s => pose proof (w64_le s) as H4; set (S := s) in * end. subst u. split; [lia|].
  intros Hu. rewrite H3, (w64_small S), mul64_eq, add64_eq by lia. lia.
Qed.
Lemma cbn_alloc_le c vs b n m : cbn_rep (cs_val c) vs (2 ^ b) n m ->
  let u := 2 ^ b * (64 / cs_val c + 1) + 8 * msum (fun _ => esz) m in
  8 * cbn_alloc (cs_val c) n <= u /\ (u < 2 ^ 67 -> 8 * cbn_alloc (cs_val c) n = u).
Proof.
  intros R u. unfold cbn_alloc.
  pose proof (add64_le (add64 (mul64 (vlen (cbn_ptrs n)) 8) (mul64 (vlen (cbn_chunks n)) (cs_val c / 8))) (cbn_bytes n)) as H1.
  pose proof (add64_le (mul64 (vlen (cbn_ptrs n)) 8) (mul64 (vlen (cbn_chunks n)) (cs_val c / 8))) as H2.
  pose proof (mul64_le (vlen (cbn_ptrs n)) 8) as H3. pose proof (mul64_le (vlen (cbn_chunks n)) (cs_val c / 8)) as H4.
  pose proof (w64_le (tot m)) as H5. pose proof (cr_bytes _ _ _ _ _ R) as H6. rewrite <- H6 in H5.
  assert (H7 : 2 ^ b = vlen (cbn_ptrs n) * cs_val c) by apply (cr_P _ _ _ _ _ R).
  rewrite (cr_len _ _ _ _ _ R) in *. change (msum (fun _ => esz) m) with (tot m) in u. subst u.
  rewrite H7. clear H7 R. set (C := vlen (cbn_ptrs n)) in *. set (S := tot m) in *. set (B := cbn_bytes n) in *. clearbody C S B. clear n m.
  assert (H8 : C * 8 + C * (cs_val c / 8) + S < 2 ^ 64 -> add64 (add64 (mul64 C 8) (mul64 C (cs_val c / 8))) B = C * 8 + C * (cs_val c / 8) + S).
  { unfold mul64 at 2. generalize (C * (cs_val c / 8)). clear -H6. intros z H. subst B. rewrite (w64_small S), (w64_small z), mul64_eq by lia.
    rewrite (add64_eq (C * 8) z) by lia. apply add64_eq. lia. }
  change (2 ^ 67) with (8 * 2 ^ 64).
  set (X := add64 (add64 (mul64 C 8) (mul64 C (cs_val c / 8))) B) in *. clearbody X.
  destruct c; cbn [cs_val] in *;
    [change (8 / 8) with 1 in *; change (64 / 8) with 8|change (16 / 8) with 2 in *; change (64 / 16) with 4|
     change (32 / 8) with 4 in *; change (64 / 32) with 2|change (64 / 8) with 8 in *; change (64 / 64) with 1]; (split; [lia|]); intros Hu; rewrite H8 by lia; lia.
Qed.
Lemma cfn_alloc_le c vs cap bcap p n m : cfn_rep (cs_val c) vs p n m ->
  cfn_alloc cap bcap n <= 8 * cap + bcap + p + msum (fun _ f => esz f) m.
Proof.
  intros R. pose proof (released_le _ _ _ _ _ (chunk_width c) R) as H. unfold cfn_alloc.
  pose proof (add64_le (add64 (mul64 cap 8) bcap) (cfn_bytes n)). pose proof (add64_le (mul64 cap 8) bcap). pose proof (mul64_le cap 8). lia.
Qed.
Lemma good_value vs P m x f : goodm vs P m -> m !! x = Some f -> N.of_nat vs <= esz f.
Proof.
  intros Hg Hx. destruct f as [l v]. destruct (Hg x l v Hx) as (_ & Hv & _). unfold esz, body, EntriesP.enc. cbn [fst snd].
  rewrite !app_length. lia.
Qed.
Lemma good_cost vs i c P m x f : i_l i = Some c -> goodm vs P m -> m !! x = Some f -> esz f <= key_bytes vs i (fst f).
Proof.
  intros Hi Hg Hx. destruct f as [l v]. destruct (Hg x l v Hx) as (_ & Hv & _). unfold key_bytes. rewrite Hi. cbn [fst]. cbv zeta.
  apply esz_le. lia.
Qed.

(** ** Instantiations *)
Definition labels_ok (vs : nat) (i : inst) (b cap bcap nodes : N) (lab : labmap) (bytes : N) : Prop :=
  let u := 2 ^ b * ptr_bits i + 8 * (grown_bytes i cap bcap nodes + lsum vs i lab) in
  8 * bytes <= u /\
  (counted i = true -> u < 2 ^ 67 ->
   2 ^ b * ptr_bits i + 8 * (grown_bytes i cap bcap 0 + N.of_nat vs * N.of_nat (size lab)) <= 8 * bytes) /\
  (i_l i = None -> u < 2 ^ 67 -> 8 * bytes = u).
Definition bytes_ok (dbg : bool) (vs : nat) (i : inst) (e b : N) (t : tT (i_trie dbg i)) (n : nT (i_nlm vs i))
    (nodes : N) (lab : labmap) : Prop :=
  (2 ^ b * slot_bits i e b + aux_least i b <= 8 * i_trie_bytes dbg i t /\
   8 * i_trie_bytes dbg i t <= 2 ^ b * (slot_bits i e b + aux_bits i) + 8 * aux_map_bytes i nodes) /\
  forall cap bcap, labels_ok vs i b cap bcap nodes lab (i_label_bytes vs cap bcap i n).

Lemma plain_bonsai_labels vs i cap bcap nodes loc lab b n m : ptr_bits i = 64 -> i_l i = None -> (forall x, grown_bytes i cap bcap x = 0) ->
  inj_loc loc -> pbn_rep vs (2 ^ b) n m -> link loc lab m -> labels_ok vs i b cap bcap nodes lab (pbn_alloc n).
Proof.
  intros Hi1 Hi2 Hi3 Hj R Hl. unfold labels_ok. rewrite Hi1, !Hi3.
  pose proof (link_sum loc lab m _ (fun f => key_bytes vs i (fst f)) Hl (fun x f _ => N.le_refl _)) as H.
  pose proof (link_values loc lab m vs (fun f => key_bytes vs i (fst f)) Hj Hl) as H1. unfold lsum.
  unfold key_bytes in *. rewrite Hi2 in *. pose proof (pbn_alloc_le _ _ _ _ R) as [H2 H3]. split; [lia|].
  pose proof (link_sum_ge loc lab m (fun f => N.of_nat (length (fst f)) + N.of_nat vs) Hj Hl) as H4.
  split; [intros _ Hu; specialize (H1 ltac:(intros; lia)); lia|]. intros _ Hu. lia.
Qed.
Lemma plain_fkhash_labels vs i loc lab cap bcap nodes b c n m : ptr_bits i = 0 -> i_l i = None -> (forall x, grown_bytes i cap bcap x = 8 * cap) ->
  inj_loc loc -> pfn_rep vs c n m -> link loc lab m -> labels_ok vs i b cap bcap nodes lab (pfn_alloc cap n).
Proof.
  intros Hi1 Hi2 Hi3 Hj R Hl. unfold labels_ok. rewrite Hi1, !Hi3.
  pose proof (link_sum loc lab m _ (fun f => key_bytes vs i (fst f)) Hl (fun x f _ => N.le_refl _)) as H.
  pose proof (link_values loc lab m vs (fun f => key_bytes vs i (fst f)) Hj Hl) as H1. unfold lsum.
  unfold key_bytes in *. rewrite Hi2 in *. pose proof (pfn_alloc_le _ cap _ _ _ R) as [H2 H3]. split; [lia|].
  pose proof (link_sum_ge loc lab m (fun f => N.of_nat (length (fst f)) + N.of_nat vs) Hj Hl) as H4.
  split; [intros _ Hu; specialize (H1 ltac:(intros; lia)); lia|]. intros _ Hu. lia.
Qed.
Lemma compact_bonsai_labels vs i c cap bcap nodes loc lab b n m : ptr_bits i = 64 / cs_val c + 1 -> i_l i = Some c -> (forall x, grown_bytes i cap bcap x = 0) ->
  inj_loc loc -> cbn_rep (cs_val c) vs (2 ^ b) n m -> link loc lab m -> labels_ok vs i b cap bcap nodes lab (cbn_alloc (cs_val c) n).
Proof.
  intros Hi1 Hi2 Hi3 Hj R Hl. unfold labels_ok. rewrite Hi1, !Hi3.
  assert (H : msum (fun _ => esz) m <= lsum vs i lab).
  { exact (link_sum loc lab m esz (fun f => key_bytes vs i (fst f)) Hl
      (fun x f => good_cost vs i c _ m x f Hi2 (cr_good _ _ _ _ _ R))). }
  pose proof (link_values loc lab m vs esz Hj Hl (fun x f => good_value vs _ m x f (cr_good _ _ _ _ _ R))) as H1.
  pose proof (cbn_alloc_le _ _ _ _ _ R) as [H2 H3]. split; [lia|]. split; [intros _ Hu; lia|]. rewrite Hi2. discriminate.
Qed.
Lemma compact_fkhash_labels vs i c loc lab cap bcap b p n m : ptr_bits i = 0 -> i_l i = Some c -> counted i = false ->
  (forall x, grown_bytes i cap bcap x = 8 * cap + bcap + x) ->
  cfn_rep (cs_val c) vs p n m -> link loc lab m -> labels_ok vs i b cap bcap p lab (cfn_alloc cap bcap n).
Proof.
  intros Hi1 Hi2 Hi0 Hi3 R Hl. unfold labels_ok. rewrite Hi1, Hi3, Hi0, Hi2. split; [|split; discriminate].
  pose proof (cfn_alloc_le _ _ cap bcap _ _ _ R) as H1.
  assert (H : msum (fun _ f => esz f) m <= lsum vs i lab).
  { exact (link_sum loc lab m esz (fun f => key_bytes vs i (fst f)) Hl
      (fun x f => good_cost vs i c _ m x f Hi2 (CompactFkNlmP.fr_good _ _ _ _ _ R))). }
  lia.
Qed.

Section tries.
  Context (dbg : bool) (vs : nat) (e b : N).
  Lemma plain_bonsai_trie H mf l t : pb_shape mf b (8 + e) t ->
    let i := mkInst (T_plain_bonsai H mf) l in
    forall n, 2 ^ b * slot_bits i e b + aux_least i b <= 8 * pb_bytes t /\ 8 * pb_bytes t <= 2 ^ b * (slot_bits i e b + aux_bits i) + 8 * aux_map_bytes i n.
  Proof.
    intros Hs i n. pose proof (pb_bytes_ok _ _ _ _ Hs) as E. unfold i, slot_bits, aux_bits, aux_least, aux_map_bytes, i_par. cbn [i_t].
    rewrite N.add_0_r, <- N.add_assoc, E. lia.
  Qed.
  Lemma plain_fkhash_trie H mf l t : PlainFkP.pf_shape mf b (8 + e) t ->
    let i := mkInst (T_plain_fkhash H mf) l in
    forall n, 2 ^ b * slot_bits i e b + aux_least i b <= 8 * pf_bytes t /\ 8 * pf_bytes t <= 2 ^ b * (slot_bits i e b + aux_bits i) + 8 * aux_map_bytes i n.
  Proof.
    intros Hs i n. pose proof (pf_bytes_ok _ _ _ _ Hs) as E. unfold i, slot_bits, aux_bits, aux_least, aux_map_bytes, i_par. cbn [i_t].
    rewrite N.add_0_r, E, <- (N.add_assoc b 8 e). lia.
  Qed.
  Lemma compact_bonsai_trie (H : trie_hashers) P mf l t mc ms n : dp_ok P -> cb_shape P mf b (8 + e) t mc ms -> N.of_nat (size mc) + N.of_nat (size ms) <= n ->
    let i := mkInst (T_compact_bonsai H P mf) l in
    2 ^ b * slot_bits i e b + aux_least i b <= 8 * cb_bytes t /\ 8 * cb_bytes t <= 2 ^ b * (slot_bits i e b + aux_bits i) + 8 * aux_map_bytes i n.
  Proof.
    intros HP Hs Hn i. destruct (dt_bytes_le P b (8 + e) (cb_dt t) mc ms n HP) as (H1 & H2 & _); [apply Hs|exact Hn|].
    unfold i, slot_bits, aux_bits, aux_least, aux_map_bytes, i_par. cbn [i_t]. split; [exact H1|exact H2].
  Qed.
  Lemma compact_fkhash_trie (H : trie_hashers) P mf l t mc ms n : dp_ok P -> cf_shape P mf b (8 + e) t mc ms -> N.of_nat (size mc) + N.of_nat (size ms) <= n ->
    let i := mkInst (T_compact_fkhash H P mf) l in
    2 ^ b * slot_bits i e b + aux_least i b <= 8 * cf_bytes t /\ 8 * cf_bytes t <= 2 ^ b * (slot_bits i e b + aux_bits i) + 8 * aux_map_bytes i n.
  Proof.
    intros HP Hs Hn i. destruct (cf_bytes_le P mf b (8 + e) t mc ms n HP Hs Hn) as (H1 & H2).
    unfold i, slot_bits, aux_bits, aux_least, aux_map_bytes, i_par. cbn [i_t]. split; [exact H1|exact H2].
  Qed.
End tries.

Definition pack_bytes {dbg vs i e B0 T} (K : ipack dbg vs i e B0 T) : Prop :=
  (forall b t n loc lab, ip_srep _ _ _ _ _ _ K b t n loc lab -> bytes_ok dbg vs i e b t n (N.of_nat (size loc)) lab) /\
  (forall b t n, ip_sfresh _ _ _ _ _ _ K b t n -> bytes_ok dbg vs i e b t n 0 ∅).
Lemma inst_pack_bytes dbg vs i e B0 T : valid_inst i -> (1 <= vs)%nat -> 16 <= B0 -> T <= node_limit (i_mf i) (8 + e) ->
  exists K : ipack dbg vs i e B0 T, pack_bytes K.
Proof.
  intros Hv Hvs HB HT. pose proof (proj1 Hv) as Hmf. pose proof (valid_dp i) as HP.
  assert (H0 : N.of_nat (size (∅ : gmap N N)) + N.of_nat (size (∅ : gmap N N)) <= 0) by (rewrite map_size_empty; lia).
  destruct i as [[H mf|H P mf|H mf|H P mf] [c|]]; cbn [i_mf i_par i_t] in *; try pose proof (valid_th H (proj2 (proj2 Hv))) as HTO; try specialize (HP P Hv eq_refl).
  - refine (ex_intro _ (mkIPack dbg vs (mkInst (T_plain_bonsai H mf) (Some c)) e B0 T _ _ _ (bonsai_store_ok (pb_ops mf) (cbn_ops (cs_val c) vs) _ mf (8 + e) _ _ _ _ _ (pb_ok mf (8 + e) Hmf _ T B0 HT (sb_pos e))
      (cbn_ok (cs_val c) vs (chunk_width c)))) _).
    split.
    + intros b t n loc lab (R & _ & m & Hn & Hl). split; [apply (plain_bonsai_trie e b H mf (Some c) t (PlainBonsaiP.pr_shape _ _ _ _ _ R))|].
      intros cap bcap. eapply compact_bonsai_labels; first [reflexivity|eassumption|exact (trep_loc_inj _ _ _ _ _ _ _ (PlainBonsaiP.pr_trep _ _ _ _ _ R))].
    + intros b t n ((R & _) & _ & Hn). split; [apply (plain_bonsai_trie e b H mf (Some c) t R)|].
      intros cap bcap. eapply compact_bonsai_labels; first [reflexivity|exact Hn|apply link_empty|apply inj_loc_empty].
  - refine (ex_intro _ (mkIPack dbg vs (mkInst (T_plain_bonsai H mf) None) e B0 T _ _ _ (bonsai_store_ok (pb_ops mf) (pbn_ops vs) _ mf (8 + e) _ _ _ _ _ (pb_ok mf (8 + e) Hmf _ T B0 HT (sb_pos e)) (pbn_ok vs))) _).
    split.
    + intros b t n loc lab (R & _ & m & Hn & Hl). split; [apply (plain_bonsai_trie e b H mf None t (PlainBonsaiP.pr_shape _ _ _ _ _ R))|].
      intros cap bcap. eapply plain_bonsai_labels; first [reflexivity|eassumption|exact (trep_loc_inj _ _ _ _ _ _ _ (PlainBonsaiP.pr_trep _ _ _ _ _ R))].
    + intros b t n ((R & _) & _ & Hn). split; [apply (plain_bonsai_trie e b H mf None t R)|].
      intros cap bcap. eapply plain_bonsai_labels; first [reflexivity|exact Hn|apply link_empty|apply inj_loc_empty].
  - refine (ex_intro _ (mkIPack dbg vs (mkInst (T_compact_bonsai H P mf) (Some c)) e B0 T _ _ _ (bonsai_store_ok (cb_ops P mf) (cbn_ops (cs_val c) vs) _ mf (8 + e) _ _ _ _ _ (cb_ok P HP mf (8 + e) Hmf B0 T HB HT)
      (cbn_ok (cs_val c) vs (chunk_width c)))) _).
    split.
    + intros b t n loc lab ((_ & mc & ms & R) & _ & m & Hn & Hl). split.
      * apply (compact_bonsai_trie e b H P mf (Some c) t mc ms); [exact HP|apply R|].
        pose proof (xr_aux _ _ _ _ _ _ _ _ R) as H1. rewrite (xr_size _ _ _ _ _ _ _ _ R) in H1. clear -H1. lia.
      * intros cap bcap. eapply compact_bonsai_labels; first [reflexivity|eassumption|exact (trep_loc_inj _ _ _ _ _ _ _ (xr_trep _ _ _ _ _ _ _ _ R))].
    + intros b t n ((_ & R & _) & _ & Hn). split; [apply (compact_bonsai_trie e b H P mf (Some c) t ∅ ∅ 0 HP R H0)|].
      intros cap bcap. eapply compact_bonsai_labels; first [reflexivity|exact Hn|apply link_empty|apply inj_loc_empty].
  - refine (ex_intro _ (mkIPack dbg vs (mkInst (T_compact_bonsai H P mf) None) e B0 T _ _ _ (bonsai_store_ok (cb_ops P mf) (pbn_ops vs) _ mf (8 + e) _ _ _ _ _ (cb_ok P HP mf (8 + e) Hmf B0 T HB HT) (pbn_ok vs))) _).
    split.
    + intros b t n loc lab ((_ & mc & ms & R) & _ & m & Hn & Hl). split.
      * apply (compact_bonsai_trie e b H P mf None t mc ms); [exact HP|apply R|].
        pose proof (xr_aux _ _ _ _ _ _ _ _ R) as H1. rewrite (xr_size _ _ _ _ _ _ _ _ R) in H1. clear -H1. lia.
      * intros cap bcap. eapply plain_bonsai_labels; first [reflexivity|eassumption|exact (trep_loc_inj _ _ _ _ _ _ _ (xr_trep _ _ _ _ _ _ _ _ R))].
    + intros b t n ((_ & R & _) & _ & Hn). split; [apply (compact_bonsai_trie e b H P mf None t ∅ ∅ 0 HP R H0)|].
      intros cap bcap. eapply plain_bonsai_labels; first [reflexivity|exact Hn|apply link_empty|apply inj_loc_empty].
  - refine (ex_intro _ (mkIPack dbg vs (mkInst (T_plain_fkhash H mf) (Some c)) e B0 T _ _ _ (fkhash_store_ok (pf_ops dbg mf) (cfn_ops (cs_val c) vs) _ mf (8 + e) dbg _ _ _ _ _ Hmf (pf_ok mf (8 + e) Hmf _ T B0 dbg HT)
      (cfn_ok (cs_val c) vs (chunk_width c) Hvs))) _).
    split.
    + intros b t n loc lab ((R & _) & m & Hn & Hl). split; [apply (plain_fkhash_trie e b H mf (Some c) t (PlainFkP.fr_shape _ _ _ _ _ _ R))|].
      intros cap bcap. eapply compact_fkhash_labels; first [reflexivity|eassumption|exact (trep_loc_inj _ _ _ _ _ _ _ (PlainFkP.fr_trep _ _ _ _ _ _ R))].
    + intros b t n ((R & _) & _ & Hn). split; [apply (plain_fkhash_trie e b H mf (Some c) t R)|].
      intros cap bcap. eapply compact_fkhash_labels; first [reflexivity|exact Hn|apply link_empty|apply inj_loc_empty].
  - refine (ex_intro _ (mkIPack dbg vs (mkInst (T_plain_fkhash H mf) None) e B0 T _ _ _ (fkhash_store_ok (pf_ops dbg mf) (pfn_ops vs) _ mf (8 + e) dbg _ _ _ _ _ Hmf (pf_ok mf (8 + e) Hmf _ T B0 dbg HT) (pfn_ok vs))) _).
    split.
    + intros b t n loc lab ((R & _) & m & Hn & Hl). split; [apply (plain_fkhash_trie e b H mf None t (PlainFkP.fr_shape _ _ _ _ _ _ R))|].
      intros cap bcap. eapply plain_fkhash_labels; first [reflexivity|eassumption|exact (trep_loc_inj _ _ _ _ _ _ _ (PlainFkP.fr_trep _ _ _ _ _ _ R))].
    + intros b t n ((R & _) & _ & Hn). split; [apply (plain_fkhash_trie e b H mf None t R)|].
      intros cap bcap. eapply plain_fkhash_labels; first [reflexivity|exact Hn|apply link_empty|apply inj_loc_empty].
  - refine (ex_intro _ (mkIPack dbg vs (mkInst (T_compact_fkhash H P mf) (Some c)) e B0 T _ _ _ (fkhash_store_ok (cf_ops P mf) (cfn_ops (cs_val c) vs) _ mf (8 + e) false _ _ _ _ _ Hmf (cf_ok P HP mf (8 + e) Hmf B0 T HB HT)
      (cfn_ok (cs_val c) vs (chunk_width c) Hvs))) _).
    split.
    + intros b t n loc lab (((_ & mc & ms & R) & _) & m & Hn & Hl). split.
      * apply (compact_fkhash_trie e b H P mf (Some c) t mc ms); [exact HP|apply R|].
        pose proof (yr_aux _ _ _ _ _ _ _ _ R) as H1. rewrite (yr_size _ _ _ _ _ _ _ _ R) in H1. clear -H1. lia.
      * intros cap bcap. eapply compact_fkhash_labels; first [reflexivity|eassumption|exact (trep_loc_inj _ _ _ _ _ _ _ (yr_trep _ _ _ _ _ _ _ _ R))].
    + intros b t n ((_ & R & _) & _ & Hn). split; [apply (compact_fkhash_trie e b H P mf (Some c) t ∅ ∅ 0 HP R H0)|].
      intros cap bcap. eapply compact_fkhash_labels; first [reflexivity|exact Hn|apply link_empty|apply inj_loc_empty].
  - refine (ex_intro _ (mkIPack dbg vs (mkInst (T_compact_fkhash H P mf) None) e B0 T _ _ _ (fkhash_store_ok (cf_ops P mf) (pfn_ops vs) _ mf (8 + e) false _ _ _ _ _ Hmf (cf_ok P HP mf (8 + e) Hmf B0 T HB HT) (pfn_ok vs))) _).
    split.
    + intros b t n loc lab (((_ & mc & ms & R) & _) & m & Hn & Hl). split.
      * apply (compact_fkhash_trie e b H P mf None t mc ms); [exact HP|apply R|].
        pose proof (yr_aux _ _ _ _ _ _ _ _ R) as H1. rewrite (yr_size _ _ _ _ _ _ _ _ R) in H1. clear -H1. lia.
      * intros cap bcap. eapply plain_fkhash_labels; first [reflexivity|eassumption|exact (trep_loc_inj _ _ _ _ _ _ _ (yr_trep _ _ _ _ _ _ _ _ R))].
    + intros b t n ((_ & R & _) & _ & Hn). split; [apply (compact_fkhash_trie e b H P mf None t ∅ ∅ 0 HP R H0)|].
      intros cap bcap. eapply plain_fkhash_labels; first [reflexivity|exact Hn|apply link_empty|apply inj_loc_empty].
Qed.

(** ** Maps *)
Lemma key_bytes_mono vs i k l : (length l <= length k)%nat -> key_bytes vs i l <= key_bytes vs i k.
Proof.
  intros H. unfold key_bytes. destruct (i_l i); [|lia]. cbv zeta.
  pose proof (header_mono (N.of_nat (length l) - 1 + N.of_nat vs) (N.of_nat (length k) - 1 + N.of_nat vs) ltac:(lia)). lia.
Qed.
Lemma lab_sum TO NO e srep vs i m S D M b loc lab : e <= 39 ->
  mrep TO NO e srep m S D M b loc lab -> lsum vs i lab <= dict_bytes vs i M.
Proof.
  intros He R. pose proof (mr_D _ _ _ _ _ _ _ _ _ _ _ R) as HD. pose proof (mr_codes _ _ _ _ _ _ _ _ _ _ _ R) as HC.
  pose proof (mr_dict _ _ _ _ _ _ _ _ _ _ _ R) as [HM _].
  change (dict_bytes vs i M) with (msum (fun k _ => key_bytes vs i k) M). unfold lsum.
  apply (msum_le _ _ (fun q k => exists π x, D !! π = Some x /\ q = MapP.enc e (m_codes _ _ m) π /\ keyof D π = k)).
  - intros q [l v] Hq. destruct (mr_lab2 _ _ _ _ _ _ _ _ _ _ _ R q _ Hq) as (π & -> & Hp).
    exists (keyof D π), v. split; [eauto|]. split; [apply (HM π l v Hp)|]. apply key_bytes_mono.
    unfold keyof, label. rewrite Hp, app_length. simpl. lia.
  - intros q q' k _ _ (π & x & Hp & -> & Ek) (π' & x' & Hp' & -> & Ek').
    assert (π = π') as -> by (eapply (keyof_inj S D HD); [exact Hp|exact Hp'|congruence]). reflexivity.
Qed.
Lemma lab_size TO NO e srep m S D M b loc lab :
  mrep TO NO e srep m S D M b loc lab -> N.of_nat (size M) <= N.of_nat (size lab).
Proof.
  intros R. pose proof (mr_D _ _ _ _ _ _ _ _ _ _ _ R) as HD. pose proof (mr_codes _ _ _ _ _ _ _ _ _ _ _ R) as HC.
  pose proof (mr_dict _ _ _ _ _ _ _ _ _ _ _ R) as [_ HM].
  rewrite <- (N.mul_1_l (N.of_nat (size M))), <- (N.mul_1_l (N.of_nat (size lab))), <- !msum_const.
  apply (msum_le _ _ (fun k q => exists π, is_Some (D !! π) /\ q = MapP.enc e (m_codes _ _ m) π /\ keyof D π = k)).
  - intros k v Hk. destruct (HM k v Hk) as (π & l & Hp & Ek). exists (MapP.enc e (m_codes _ _ m) π), (l, v).
    split; [eauto|]. split; [apply (mr_lab _ _ _ _ _ _ _ _ _ _ _ R π _ Hp)|reflexivity].
  - intros k k' q _ _ (π & Hp & -> & <-) (π' & Hp' & E & <-).
    apply (enc_inj e _ _ S HC) in E as ->; [reflexivity| |]; apply (dvalid_inS S D _ HD); assumption.
Qed.
Definition label_bounds (vs : nat) (i : inst) (b cap bcap nodes : N) (M : dict) (bytes : N) : Prop :=
  let u := 2 ^ b * ptr_bits i + 8 * (grown_bytes i cap bcap nodes + dict_bytes vs i M) in
  8 * bytes <= u /\
  (counted i = true -> u < 2 ^ 67 ->
   2 ^ b * ptr_bits i + 8 * (grown_bytes i cap bcap 0 + N.of_nat vs * N.of_nat (size M)) <= 8 * bytes).
Lemma minv_bytes dbg vs i e B0 T (K : ipack dbg vs i e B0 T) m S D M b loc : e <= 39 -> pack_bytes K ->
  minv _ _ e (ip_srep _ _ _ _ _ _ K) (ip_sfresh _ _ _ _ _ _ K) m S D M b loc ->
  (2 ^ b * slot_bits i e b + aux_least i b <= 8 * i_trie_bytes dbg i (m_trie _ _ m) /\
   8 * i_trie_bytes dbg i (m_trie _ _ m) <= 2 ^ b * (slot_bits i e b + aux_bits i) + 8 * aux_map_bytes i (N.of_nat (size loc))) /\
  forall cap bcap, label_bounds vs i b cap bcap (N.of_nat (size loc)) M (i_label_bytes vs cap bcap i (m_nlm _ _ m)).
Proof.
  intros He [H1 H2] [(-> & -> & -> & -> & Hf)|[lab R]].
  - destruct (H2 _ _ _ (mf_store _ _ _ _ _ _ Hf)) as [A B]. rewrite map_size_empty. split; [exact A|]. intros cap bcap.
    specialize (B cap bcap). split; apply B.
  - destruct (H1 _ _ _ _ _ (mr_store _ _ _ _ _ _ _ _ _ _ _ R)) as [A B]. split; [exact A|]. intros cap bcap.
    specialize (B cap bcap). destruct B as (B1 & B2 & _).
    pose proof (lab_sum _ _ _ _ vs i _ _ _ _ _ _ _ He R) as H3. pose proof (lab_size _ _ _ _ _ _ _ _ _ _ _ R) as H4.
    split.
    + eapply N.le_trans; [exact B1|]. apply N.add_le_mono_l, N.mul_le_mono_l, N.add_le_mono_l, H3.
    + intros Hc Hu. eapply N.le_trans; [|apply B2; [exact Hc|]].
      * apply N.add_le_mono_l, N.mul_le_mono_l, N.add_le_mono_l, N.mul_le_mono_l, H4.
      * eapply N.le_lt_trans; [|exact Hu]. apply N.add_le_mono_l, N.mul_le_mono_l, N.add_le_mono_l, H3.
Qed.

Lemma aux_map_mono i n n' : valid_inst i -> n <= n' -> aux_map_bytes i n <= aux_map_bytes i n'.
Proof.
  intros [_ Hv] H. unfold aux_map_bytes. destruct (i_par i) as [P|]; [|lia]. apply N.mul_le_mono_l, N.max_le_compat_l.
  apply N.div_le_mono; lia.
Qed.
Lemma grown_mono i cap bcap n n' : n <= n' -> grown_bytes i cap bcap n <= grown_bytes i cap bcap n'.
Proof. intros H. unfold grown_bytes. destruct (i_t i), (i_l i); lia. Qed.

Lemma i_bytes_ok dbg vs i cb e ops : valid_inst i -> i_supported vs i cb e (updated ops) -> Forall (valid_op vs) ops ->
  i_no_trap dbg i (updated ops) ->
  exists m0, i_new dbg vs i cb (2 ^ e) = Ret m0 /\
    i_yields i cb e (updated ops) (i_run dbg vs i m0 ops) (fun '(_, m) =>
      exists b nodes, i_capa_size dbg vs i m = 2 ^ b /\ (b = N.max 16 cb \/ 2 ^ b * i_mf i <= 200 * (nodes + 8)) /\
        nodes <= dict_nodes e (final vs ops) /\
        (2 ^ b * slot_bits i e b + aux_least i b <= 8 * i_trie_bytes dbg i (m_trie _ _ m) /\
         8 * i_trie_bytes dbg i (m_trie _ _ m) <= 2 ^ b * (slot_bits i e b + aux_bits i) + 8 * aux_map_bytes i nodes) /\
        forall cap bcap, label_bounds vs i b cap bcap nodes (final vs ops) (i_label_bytes vs cap bcap i (m_nlm _ _ m))).
Proof.
  intros Hvi Hsup Hv Hnt. destruct (i_supported_limit _ _ _ _ _ Hvi Hsup) as (He & Hcb & Hroom & _).
  pose proof (proj1 Hvi) as Hmf. destruct Hsup as (Hvs & Hcb' & Hn & HA).
  assert (HB : 16 <= N.max 16 cb) by lia.
  destruct (inst_pack_bytes dbg vs i e (N.max 16 cb) (nodes_for e (updated ops) + 2) Hvi Hvs HB ltac:(lia)) as [K HK].
  pose proof (ip_ok _ _ _ _ _ _ K) as PK.
  destruct (map_new_ok _ _ _ _ _ _ _ _ _ _ PK He cb Hcb) as (m0 & E & Hf); [reflexivity|].
  exists m0. split; [exact E|]. pose proof (mfresh_minv _ _ e (ip_srep _ _ _ _ _ _ K) (ip_sfresh _ _ _ _ _ _ K) _ _ Hf) as Hf0. clear Hf. rename Hf0 into Hf.
  apply (wpx_i_yields vs); [exact Hvi|repeat split; assumption|].
  eapply wpx_mono.
  { apply (run_ok dbg _ _ _ _ e _ _ _ _ _ PK He Hmf ops m0 {[ 0 ]} ∅ ∅ _ ∅ (alphabet (updated ops)) Hf).
    - rewrite i_vs. exact Hv.
    - apply i_no_trap_forall, Hnt.
    - unfold alphabet. set_solver.
    - reflexivity.
    - exact HA.
    - cbn [i_lim l_max]. rewrite dom_empty_L, union_empty_l_L. unfold nodes_for. lia. }
  intros [xs m] (_ & S & D & b & loc & Hb & Hi & _). rewrite i_vs in Hi. change (snd (spec_run vs ∅ ops)) with (final vs ops) in Hi.
  exists b, (N.of_nat (size loc)).
  destruct (minv_capa _ _ _ _ _ _ _ _ _ _ PK _ _ _ _ _ _ Hi) as (_ & Hcap & _).
  destruct (minv_count _ _ _ _ _ _ _ _ _ _ _ Hi) as (Hcnt & _).
  pose proof (minv_tight _ _ _ _ _ _ _ _ _ _ PK _ _ _ _ _ _ Hi) as Htg.
  pose proof (minv_bits _ _ _ _ _ _ _ _ _ _ PK _ _ _ _ _ _ Hi) as Hbl.
  split; [|split; [|split]].
  - unfold i_capa_size, map_capa_size. rewrite Hcap. apply p2_size_ones. pose proof (bits_limit_le (8 + e)). lia.
  - destruct Htg as [Ht|Ht]; [left; cbn [i_lim l_b0] in Ht; lia|right].
    pose proof (bits_limit_le (8 + e)) as Hlim. pose proof (max_size_near (b - 1) (i_mf i) ltac:(lia) Hmf) as Hx.
    replace b with ((b - 1) + 1) at 1 by lia. rewrite pow2_succ. clear -Ht Hx. lia.
  - exact Hcnt.
  - apply (minv_bytes _ _ _ _ _ _ K _ _ _ _ _ _ He HK Hi).
Qed.
