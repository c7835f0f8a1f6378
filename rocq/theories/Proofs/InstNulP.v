(** Keys with embedded NULs (C10) and the assertion of the plain FK trie (C14) for every instantiation. *)
From Verif.Proofs Require Import NulP PresentP InstP InstMoreP.
Local Open Scope N_scope.
Local Notation enc := MapP.enc.

(** What the label stores compare, as the proofs of C10 need it. *)
Definition i_compact (i : inst) : bool := match i_l i with None => false | Some _ => true end.
Definition i_past (vs : nat) (i : inst) (n : nT (i_nlm vs i)) (loc : locmap) (lab : labmap) : Prop :=
  forall p x l v, loc !! p = Some x -> lab !! p = Some (l, v) ->
  if i_compact i then
    (olab l -> forall z, past_nul (n_compare (i_nlm vs i) n x) l z) /\
    (forall k z, l = k ++ z -> k <> [] -> z <> [] -> n_compare (i_nlm vs i) n x k = UB)
  else
    (forall z, (forall k, okey k -> okey l -> k <> l -> n_compare (i_nlm vs i) n x (k ++ z) = Ret (None, N.of_nat (lcp k l))) /\
      exists id, hp_find (n_heap (i_nlm vs i) n) id = Some (l ++ v) /\ length v = vs /\
        (l ++ z = [] -> n_compare (i_nlm vs i) n x (l ++ z) = Ret (Some (id, 0), 0)) /\
        (l ++ z <> [] -> n_compare (i_nlm vs i) n x (l ++ z) =
          let* r := plain_cmp z v (N.of_nat (length l)) in if fst r then Ret (Some (id, snd r), snd r) else Ret (None, snd r))) /\
    (forall k z, l = k ++ z -> k <> [] ->
      exists id, hp_find (n_heap (i_nlm vs i) n) id = Some (k ++ z ++ v) /\
        n_compare (i_nlm vs i) n x k = Ret (Some (id, N.of_nat (length k)), N.of_nat (length k))).

Lemma cbn_short cs vs (Hcs : width_ok cs) P n m x k z v : cbn_rep cs vs P n m -> m !! x = Some (k ++ z, v) ->
  k <> [] -> z <> [] -> cbn_compare cs vs n x k = UB.
Proof.
  intros R E Hk Hz. destruct (cbn_compare_entry cs vs Hcs P n m x _ v R E) as (id & l & rest & H1 & H2 & H3 & H4 & _ & _ & _ & _ & Hc).
  rewrite Hc. apply entry_short; assumption.
Qed.
Lemma cfn_short cs vs (Hcs : width_ok cs) (Hvs : (1 <= vs)%nat) P n m x k z v : cfn_rep cs vs P n m -> m !! x = Some (k ++ z, v) ->
  k <> [] -> z <> [] -> cfn_compare cs vs n x k = UB.
Proof.
  intros R E Hk Hz. destruct (cfn_compare_entry cs vs Hcs Hvs P n m x _ v R E) as (id & l & rest & H1 & H2 & H3 & H4 & _ & _ & _ & _ & Hc).
  rewrite Hc. apply entry_short; assumption.
Qed.

(** The debug assertion of the trie. *)
Definition i_pf_trap (dbg : bool) (vs : nat) (i : inst) (T : N) (b e : N) (t : tT (i_trie dbg i)) (loc : locmap) : Prop :=
  forall x, dbg = true -> i_traps dbg i = true -> loc !! [] = Some x -> N.of_nat (size loc) + 1 < node_limit (i_mf i) (8 + e) -> e <= 39 ->
  t_add_child (i_trie dbg i) t x 0 = AssertFail.
Lemma pf_trap_ok (H : plain_hasher) mf e b t loc x : pf_rep true mf b (8 + e) t loc -> 1 <= mf <= 99 -> loc !! [] = Some x ->
  N.of_nat (size loc) + 1 < node_limit mf (8 + e) -> e <= 39 -> pf_add_child true mf t x 0 = AssertFail.
Proof.
  intros R Hmf Hx Hused He. pose proof (tr_root _ _ _ _ _ _ _ (PlainFkP.fr_trep _ _ _ _ _ _ R)) as H0.
  rewrite H0 in Hx. injection Hx as <-. apply (pf_add_trap mf b (8 + e) t loc R).
  pose proof (PlainFkP.fs_b _ _ _ _ (PlainFkP.fr_shape _ _ _ _ _ _ R)) as Hb. pose proof (PlainFkP.fs_sb _ _ _ _ (PlainFkP.fr_shape _ _ _ _ _ _ R)) as Hsb.
  destruct (N.lt_ge_cases (pf_size t) (pf_max t)) as [|Hge]; [left; assumption|right].
  rewrite (PlainFkP.fs_max _ _ _ _ (PlainFkP.fr_shape _ _ _ _ _ _ R)), (PlainFkP.fr_size _ _ _ _ _ _ R) in Hge.
  assert (b + 1 <= bits_limit (8 + e)) as Hlm.
  { apply (node_limit_room mf (8 + e) Hmf b (N.of_nat (size loc))); [unfold bits_limit; clear -Hb Hsb; lia|exact Hge|exact Hused]. }
  unfold bits_limit in Hlm. clear -Hlm Hb Hsb He. lia.
Qed.

Definition pack_nul {dbg vs i e B0 T} (K : ipack dbg vs i e B0 T) : Prop :=
  forall b t n loc lab, ip_srep _ _ _ _ _ _ K b t n loc lab -> i_past vs i n loc lab /\ i_pf_trap dbg vs i T b e t loc.

Lemma inst_pack_nul dbg vs i e B0 T : valid_inst i -> (1 <= vs)%nat -> 16 <= B0 -> T <= node_limit (i_mf i) (8 + e) ->
  exists K : ipack dbg vs i e B0 T, pack_nul K.
Proof.
  intros Hv Hvs HB HT. pose proof (proj1 Hv) as Hmf. pose proof (valid_dp i) as HP.
  destruct i as [[H mf|H P mf|H mf|H P mf] [c|]]; cbn [i_mf i_par i_t] in *; try pose proof (valid_th H (proj2 (proj2 Hv))) as HTO; try specialize (HP P Hv eq_refl).
  - refine (ex_intro _ (mkIPack dbg vs (mkInst (T_plain_bonsai H mf) (Some c)) e B0 T _ _ _ (bonsai_store_ok (pb_ops mf) (cbn_ops (cs_val c) vs) _ mf (8 + e) _ _ _ _ _ (pb_ok mf (8 + e) Hmf _ T B0 HT (sb_pos e))
      (cbn_ok (cs_val c) vs (chunk_width c)))) _).
    intros b t n loc lab (_ & _ & m & R & Hk). split; [|intros x _ Ht; discriminate Ht]. intros p x l v Hx Hl. rewrite <- (lk_m _ _ _ Hk _ _ Hx) in Hl. split.
    + intros Hol z. apply (cbn_past _ _ (chunk_width c) _ _ _ _ _ _ z R Hl Hol).
    + intros k z ->. apply (cbn_short _ _ (chunk_width c) _ _ _ _ _ _ _ R Hl).
  - refine (ex_intro _ (mkIPack dbg vs (mkInst (T_plain_bonsai H mf) None) e B0 T _ _ _ (bonsai_store_ok (pb_ops mf) (pbn_ops vs) _ mf (8 + e) _ _ _ _ _ (pb_ok mf (8 + e) Hmf _ T B0 HT (sb_pos e)) (pbn_ok vs))) _).
    intros b t n loc lab (_ & _ & m & (_ & R & _) & Hk). split; [|intros x _ Ht; discriminate Ht]. intros p x l v Hx Hl. rewrite <- (lk_m _ _ _ Hk _ _ Hx) in Hl. split.
    + intros z. apply (plain_past _ _ _ _ _ _ _ _ z R Hl).
    + intros k z ->. apply (plain_prefix _ _ _ _ _ _ _ _ _ R Hl).
  - refine (ex_intro _ (mkIPack dbg vs (mkInst (T_compact_bonsai H P mf) (Some c)) e B0 T _ _ _ (bonsai_store_ok (cb_ops P mf) (cbn_ops (cs_val c) vs) _ mf (8 + e) _ _ _ _ _ (cb_ok P HP mf (8 + e) Hmf B0 T HB HT)
      (cbn_ok (cs_val c) vs (chunk_width c)))) _).
    intros b t n loc lab (_ & _ & m & R & Hk). split; [|intros x _ Ht; discriminate Ht]. intros p x l v Hx Hl. rewrite <- (lk_m _ _ _ Hk _ _ Hx) in Hl. split.
    + intros Hol z. apply (cbn_past _ _ (chunk_width c) _ _ _ _ _ _ z R Hl Hol).
    + intros k z ->. apply (cbn_short _ _ (chunk_width c) _ _ _ _ _ _ _ R Hl).
  - refine (ex_intro _ (mkIPack dbg vs (mkInst (T_compact_bonsai H P mf) None) e B0 T _ _ _ (bonsai_store_ok (cb_ops P mf) (pbn_ops vs) _ mf (8 + e) _ _ _ _ _ (cb_ok P HP mf (8 + e) Hmf B0 T HB HT) (pbn_ok vs))) _).
    intros b t n loc lab (_ & _ & m & (_ & R & _) & Hk). split; [|intros x _ Ht; discriminate Ht]. intros p x l v Hx Hl. rewrite <- (lk_m _ _ _ Hk _ _ Hx) in Hl. split.
    + intros z. apply (plain_past _ _ _ _ _ _ _ _ z R Hl).
    + intros k z ->. apply (plain_prefix _ _ _ _ _ _ _ _ _ R Hl).
  - refine (ex_intro _ (mkIPack dbg vs (mkInst (T_plain_fkhash H mf) (Some c)) e B0 T _ _ _ (fkhash_store_ok (pf_ops dbg mf) (cfn_ops (cs_val c) vs) _ mf (8 + e) dbg _ _ _ _ _ Hmf (pf_ok mf (8 + e) Hmf _ T B0 dbg HT)
      (cfn_ok (cs_val c) vs (chunk_width c) Hvs))) _).
    intros b t n loc lab Hs. split.
    + destruct Hs as (_ & m & R & Hk). intros p x l v Hx Hl. rewrite <- (lk_m _ _ _ Hk _ _ Hx) in Hl. split.
      * intros Hol z. apply (cfn_past _ _ (chunk_width c) Hvs _ _ _ _ _ _ z R Hl Hol).
      * intros k z ->. apply (cfn_short _ _ (chunk_width c) Hvs _ _ _ _ _ _ _ R Hl).
    + intros x -> _ Hx Hn He. destruct Hs as [[R _] _]. apply (pf_trap_ok H mf e b t loc x R Hmf Hx Hn He).
  - refine (ex_intro _ (mkIPack dbg vs (mkInst (T_plain_fkhash H mf) None) e B0 T _ _ _ (fkhash_store_ok (pf_ops dbg mf) (pfn_ops vs) _ mf (8 + e) dbg _ _ _ _ _ Hmf (pf_ok mf (8 + e) Hmf _ T B0 dbg HT) (pfn_ok vs))) _).
    intros b t n loc lab Hs. split.
    + destruct Hs as (_ & m & (_ & R) & Hk). intros p x l v Hx Hl. rewrite <- (lk_m _ _ _ Hk _ _ Hx) in Hl. split.
      * intros z. apply (plain_past _ _ _ _ _ _ _ _ z R Hl).
      * intros k z ->. apply (plain_prefix _ _ _ _ _ _ _ _ _ R Hl).
    + intros x -> _ Hx Hn He. destruct Hs as [[R _] _]. apply (pf_trap_ok H mf e b t loc x R Hmf Hx Hn He).
  - refine (ex_intro _ (mkIPack dbg vs (mkInst (T_compact_fkhash H P mf) (Some c)) e B0 T _ _ _ (fkhash_store_ok (cf_ops P mf) (cfn_ops (cs_val c) vs) _ mf (8 + e) false _ _ _ _ _ Hmf (cf_ok P HP mf (8 + e) Hmf B0 T HB HT)
      (cfn_ok (cs_val c) vs (chunk_width c) Hvs))) _).
    intros b t n loc lab (_ & m & R & Hk). split; [|intros x _ Ht; discriminate Ht]. intros p x l v Hx Hl. rewrite <- (lk_m _ _ _ Hk _ _ Hx) in Hl. split.
    + intros Hol z. apply (cfn_past _ _ (chunk_width c) Hvs _ _ _ _ _ _ z R Hl Hol).
    + intros k z ->. apply (cfn_short _ _ (chunk_width c) Hvs _ _ _ _ _ _ _ R Hl).
  - refine (ex_intro _ (mkIPack dbg vs (mkInst (T_compact_fkhash H P mf) None) e B0 T _ _ _ (fkhash_store_ok (cf_ops P mf) (pfn_ops vs) _ mf (8 + e) false _ _ _ _ _ Hmf (cf_ok P HP mf (8 + e) Hmf B0 T HB HT) (pfn_ok vs))) _).
    intros b t n loc lab (_ & m & (_ & R) & Hk). split; [|intros x _ Ht; discriminate Ht]. intros p x l v Hx Hl. rewrite <- (lk_m _ _ _ Hk _ _ Hx) in Hl. split.
    + intros z. apply (plain_past _ _ _ _ _ _ _ _ z R Hl).
    + intros k z ->. apply (plain_prefix _ _ _ _ _ _ _ _ _ R Hl).
Qed.

(** ** Maps *)
Section reach.
  Context (dbg : bool) (vs : nat) (i : inst) (cb e T : N) (K : ipack dbg vs i e (N.max 16 cb) T).
  Context (ops : list op) (m : i_map dbg vs i).
  Hypothesis HK : pack_nul K.
  Hypothesis Hvi : valid_inst i.
  Hypothesis Hsup : i_supported vs i cb e (updated ops).
  Hypothesis HT : nodes_for e (updated ops) + 2 <= T.
  Hypothesis Hv : Forall (valid_op vs) ops.
  Hypothesis Hnt : i_no_trap dbg i (updated ops).
  Hypothesis Hr : i_reaches dbg vs i cb e ops m.
  Notation inv := (minv (i_trie dbg i) (i_nlm vs i) e (ip_srep _ _ _ _ _ _ K) (ip_sfresh _ _ _ _ _ _ K)).
  Let PK := ip_ok _ _ _ _ _ _ K.

  Lemma reach_K : exists S D b loc, inv m S D (final vs ops) b loc.
  Proof.
    destruct Hr as (m0 & xs & Hnew & Hrun). destruct (i_supported_limit _ _ _ _ _ Hvi Hsup) as (He & Hcb & Hroom & _).
    pose proof (proj1 Hvi) as Hmf. destruct Hsup as (Hvs & Hcb' & Hn & HA).
    destruct (map_new_ok _ _ _ _ _ _ _ _ _ _ PK He cb Hcb) as (m1 & E & Hf); [reflexivity|].
    assert (m1 = m0) as -> by (unfold i_new in Hnew; congruence).
    apply (mfresh_minv _ _ e (ip_srep _ _ _ _ _ _ K) (ip_sfresh _ _ _ _ _ _ K)) in Hf.
    pose proof (run_ok dbg _ _ _ _ e _ _ _ _ _ PK He Hmf ops m0 {[ 0 ]} ∅ ∅ _ ∅ (alphabet (updated ops)) Hf) as Hok.
    rewrite i_vs in Hok. specialize (Hok Hv (i_no_trap_forall _ _ _ Hnt) ltac:(unfold alphabet; set_solver) ltac:(reflexivity) HA).
    cbn [i_lim l_max] in Hok. rewrite dom_empty_L, union_empty_l_L in Hok. unfold nodes_for in HT. specialize (Hok ltac:(clear -HT; lia)).
    unfold i_run in Hrun. rewrite Hrun in Hok. destruct Hok as (_ & S & D & b & loc & Hb & Hi & _).
    exists S, D, b, loc. exact Hi.
  Qed.

  Lemma cmp_ext_K b t n loc lab z : ip_srep _ _ _ _ _ _ K b t n loc lab -> cmp_ext (i_nlm vs i) n loc lab z.
  Proof.
    intros Hs p x l v Hx Hl Hol. destruct (HK _ _ _ _ _ Hs) as [H _]. specialize (H p x l v Hx Hl).
    destruct (i_compact i).
    - destruct H as [H _]. destruct (H Hol z) as (q & H1 & H2 & H3 & H4).
      split; [exact H2|]. intros j Hj. destruct Hol as [->|Hol].
      + destruct z as [|c z]; [destruct H1 as [j' Hj']; simpl in Hj; congruence|].
        destruct (H4 c z eq_refl eq_refl) as (j' & Hj1 & Hj2). simpl in Hj. rewrite Hj in Hj1.
        destruct (N.eqb_spec c 0) as [E|E]; [discriminate|]. injection Hj1 as ->. exists 0%nat. rewrite (Hj2 E). simpl. split; [reflexivity|lia].
      + destruct (H3 Hol) as [j' Hj']. congruence.
    - destruct H as [H _]. destruct (H z) as (H1 & id & _ & _ & H3 & H4).
      split; [exact H1|]. intros j Hj. destruct (l ++ z) as [|c r] eqn:E; [rewrite H3 in Hj by reflexivity; discriminate|].
      rewrite H4 in Hj by discriminate. rewrite <- E. clear E c r H1 H3 H4.
      destruct (plain_cmp z v (N.of_nat (length l))) as [[[] j']| | | |] eqn:Ec; try discriminate Hj.
      rewrite bind_ret in Hj. cbn [fst snd] in Hj. injection Hj as ->.
      destruct (plain_cmp_index _ _ _ _ Ec) as (j2 & -> & Hj). exists (length l + j2)%nat. rewrite app_length. lia.
  Qed.

  Lemma i_find_past k : valid_key k ->
    match value_after vs k None ops with
    | None => forall z, bytes z -> List.last (0 :: z) 1 = 0 -> N.of_nat (length (k ++ z)) < 2 ^ 64 ->
        i_find dbg vs i m (k ++ z) = Ret None
    | Some v => exists S D b loc lab π x l,
        mrep (i_trie dbg i) (i_nlm vs i) e (ip_srep _ _ _ _ _ _ K) m S D (final vs ops) b loc lab /\
        D !! π = Some (l, v) /\ keyof D π = k /\ loc !! enc e (m_codes _ _ m) π = Some x /\
        lab !! enc e (m_codes _ _ m) π = Some (l, v) /\
        forall z, bytes z -> List.last (0 :: z) 1 = 0 -> N.of_nat (length (k ++ z)) < 2 ^ 64 ->
          i_find dbg vs i m (k ++ z) = let* r := n_compare (i_nlm vs i) (m_nlm _ _ m) x (l ++ z) in Ret (fst r)
    end.
  Proof.
    intros Hk. destruct (valid_okey k Hk) as [Hok Hb].
    destruct (i_supported_limit _ _ _ _ _ Hvi Hsup) as (He & _).
    destruct reach_K as (S & D & b & loc & Hi). rewrite <- final_value.
    destruct Hi as [(_ & HM & _ & _ & Hf)|[lab R]].
    - rewrite HM, lookup_empty. intros z Hbz Hz Hlen. unfold i_find, map_find.
      assert (Hck : check_key (k ++ z) = Ret tt).
      { destruct (okey_last k Hok) as [Hk1 Hk2]. assert (Hlast : List.last (k ++ z) 0 = 0).
        { destruct z as [|z0 z']; [rewrite app_nil_r; exact Hk2|].
          destruct (@exists_last _ (z0 :: z')) as (z1 & x & E); [discriminate|]. rewrite E in *. rewrite app_assoc, last_last.
          rewrite app_comm_cons, last_last in Hz. exact Hz. }
        unfold check_key. rewrite Hlast. destruct k; [congruence|reflexivity]. }
      rewrite Hck, bind_ret, (mf_ready _ _ _ _ _ _ Hf).
      destruct (so_fresh _ _ _ _ _ _ _ _ _ _ PK _ _ _ (mf_store _ _ _ _ _ _ Hf)) as [-> _]. reflexivity.
    - pose proof (map_find_past dbg _ _ _ _ _ _ _ _ _ _ PK He m S D (final vs ops) b loc lab k R Hok Hb) as H.
      pose proof (mr_store _ _ _ _ _ _ _ _ _ _ _ R) as Hs.
      destruct (final vs ops !! k) as [v|].
      + destruct H as (π & x & l & H1 & H2 & H3 & H4 & H5). exists S, D, b, loc, lab, π, x, l.
        split; [exact R|]. split; [exact H1|]. split; [exact H2|]. split; [exact H3|]. split; [exact H4|].
        intros z Hbz Hz Hlen. apply (H5 z Hbz Hz Hlen). eapply cmp_ext_K; eassumption.
      + intros z Hbz Hz Hlen. apply (H z Hbz Hz Hlen). eapply cmp_ext_K; eassumption.
  Qed.

  Lemma i_compact_past s z : i_compact i = true -> valid_key (s ++ [0]) -> bytes z -> List.last z 1 = 0 ->
    N.of_nat (length ((s ++ [0]) ++ z)) < 2 ^ 64 ->
    (i_find dbg vs i m ((s ++ [0]) ++ z) = i_find dbg vs i m (s ++ [0]) \/ i_find dbg vs i m ((s ++ [0]) ++ z) = Ret None) /\
    ((forall k', In k' (updated ops) -> s `prefix_of` k' -> k' = s ++ [0]) \/ List.hd 1 z = 0 ->
      i_find dbg vs i m ((s ++ [0]) ++ z) = i_find dbg vs i m (s ++ [0])).
  Proof.
    intros Ha Hk Hbz Hz Hlen. pose proof (i_find_past (s ++ [0]) Hk) as H.
    assert (Hz' : List.last (0 :: z) 1 = 0) by (destruct z; [discriminate|exact Hz]).
    assert (Hlen0 : N.of_nat (length ((s ++ [0]) ++ [])) < 2 ^ 64).
    { eapply N.le_lt_trans; [|exact Hlen]. rewrite !app_length. simpl. lia. }
    destruct (value_after vs (s ++ [0]) None ops) as [v|] eqn:Ev.
    - destruct H as (S & D & b & loc & lab & π & x & l & R & H1 & H2 & H3 & H4 & H5).
      pose proof (H5 [] (Forall_nil_2 _) eq_refl Hlen0) as E0. rewrite !app_nil_r in E0. rewrite E0, (H5 z Hbz Hz' Hlen).
      assert (Hol : olab l).
      { pose proof (mr_D _ _ _ _ _ _ _ _ _ _ _ R) as HD. destruct π as [|[j c] π]; [right; apply (dv_root _ _ HD _ _ H1)|].
        destruct (dv_node _ _ HD _ _ _ _ _ H1) as (_ & _ & [[_ E]|[_ E]]); [left|right]; exact E. }
      destruct (HK _ _ _ _ _ (mr_store _ _ _ _ _ _ _ _ _ _ _ R)) as [Hp _]. specialize (Hp _ x l v H3 H4). rewrite Ha in Hp.
      destruct Hp as [Hp _]. destruct (Hp Hol z) as (p & [i0 F1] & _ & F3 & F4). rewrite F1, bind_ret. cbn [fst].
      destruct Hol as [El|Hol].
      + destruct z as [|c z'] eqn:Ez; [discriminate Hz|]. rewrite El. simpl ([] ++ c :: z').
        destruct (F4 c z' El eq_refl) as (j & Hj & _). rewrite Hj, bind_ret. cbn [fst].
        split; [destruct (c =? 0); auto|]. intros [Hno|Hc].
        * exfalso. rewrite El in H1. destruct (empty_label_parent _ _ _ _ m S D _ b loc lab π v s R H1 H2) as (k' & w & Hw & Hne & Hpf).
          apply Hne. apply (Hno k'); [|exact Hpf]. rewrite final_value in Hw.
          destruct (in_dec (List.list_eq_dec N.eq_dec) k' (updated ops)) as [Hin|Hn]; [exact Hin|].
          apply (value_after_none vs) in Hn. congruence.
        * simpl in Hc. rewrite Hc. reflexivity.
      + destruct (F3 Hol) as [j Hj]. rewrite Hj, bind_ret. cbn [fst]. auto.
    - pose proof (H [] (Forall_nil_2 _) eq_refl Hlen0) as E0. rewrite app_nil_r in E0. rewrite E0, (H z Hbz Hz' Hlen). auto.
  Qed.

  Lemma i_plain_past k z : i_compact i = false -> valid_key k -> bytes z -> List.last z 1 = 0 ->
    N.of_nat (length (k ++ z)) < 2 ^ 64 ->
    match value_after vs k None ops with
    | None => i_find dbg vs i m (k ++ z) = Ret None
    | Some v =>
        (z `prefix_of` v -> exists p, i_find dbg vs i m (k ++ z) = Ret (Some p) /\ map_read _ _ m p = UB) /\
        (v `prefix_of` z -> v <> z -> i_find dbg vs i m (k ++ z) = UB) /\
        (~ z `prefix_of` v -> ~ v `prefix_of` z -> i_find dbg vs i m (k ++ z) = Ret None)
    end.
  Proof.
    intros Ha Hk Hbz Hz Hlen. pose proof (i_find_past k Hk) as H.
    assert (Hz' : List.last (0 :: z) 1 = 0) by (destruct z; [discriminate|exact Hz]).
    destruct (value_after vs k None ops) as [v|] eqn:Ev; [|apply H; assumption].
    destruct H as (S & D & b & loc & lab & π & x & l & R & H1 & H2 & H3 & H4 & H5). rewrite (H5 z Hbz Hz' Hlen).
    destruct (HK _ _ _ _ _ (mr_store _ _ _ _ _ _ _ _ _ _ _ R)) as [Hp _]. specialize (Hp _ x l v H3 H4). rewrite Ha in Hp.
    destruct Hp as [Hp _]. destruct (Hp z) as (_ & id & Hf & Hvl & _ & Hc).
    assert (Hz0 : z <> []) by (intros ->; discriminate Hz).
    rewrite Hc by (intros E; apply app_eq_nil in E as [_ E]; exact (Hz0 E)). clear Hc H5.
    destruct (plain_cmp_cases z v (N.of_nat (length l))) as (C1 & C2 & C3). split; [|split].
    - intros Hpf. rewrite (C1 Hpf), !bind_ret. cbn [fst snd]. rewrite bind_ret. cbn [fst]. eexists. split; [reflexivity|].
      unfold map_read, hp_read, hp_block. cbn [fst snd]. rewrite Hf, bind_ret, i_vs. unfold slice.
      destruct (N.leb_spec (N.of_nat (length l) + N.of_nat (length z) + N.of_nat vs) (N.of_nat (length (l ++ v)))) as [Hle|_]; [|reflexivity].
      exfalso. rewrite app_length, Hvl in Hle. destruct z; [congruence|]. simpl in Hle. lia.
    - intros Hpf Hne. rewrite (C2 Hpf Hne). reflexivity.
    - intros Hpf Hq. destruct (C3 Hpf Hq) as [r ->]. reflexivity.
  Qed.

  (** The root of a map that holds a key. *)
  Lemma root_K : updated ops <> [] ->
    exists S D b loc lab l v root,
      mrep (i_trie dbg i) (i_nlm vs i) e (ip_srep _ _ _ _ _ _ K) m S D (final vs ops) b loc lab /\
      N.of_nat (size loc) <= nodes_for e (updated ops) /\
      m_ready _ _ m = true /\ t_size _ (m_trie _ _ m) <> 0 /\ t_get_root _ (m_trie _ _ m) = Ret root /\
      loc !! [] = Some root /\ D !! [] = Some (l, v) /\ lab !! [] = Some (l, v) /\ okey l /\ In l (updated ops).
  Proof.
    intros Hne. destruct reach_K as (S & D & b & loc & Hi).
    destruct (minv_count _ _ _ _ _ m S D _ b loc Hi) as [Hu _]. rewrite dom_final in Hu.
    destruct Hi as [(_ & HM & _)|[lab R]].
    { exfalso. destruct (updated ops) as [|k ks'] eqn:Ek; [congruence|].
      assert (Hin : In k (updated ops)) by (rewrite Ek; left; reflexivity).
      assert (Hn : value_after vs k None ops = None) by (rewrite <- final_value, HM; apply lookup_empty).
      apply value_after_none in Hn. exact (Hn Hin). }
    pose proof (mr_store _ _ _ _ _ _ _ _ _ _ _ R) as Hs.
    destruct (so_root _ _ _ _ _ _ _ _ _ _ PK _ _ _ _ _ Hs) as (root & Er & Hroot).
    destruct (mr_ne _ _ _ _ _ _ _ _ _ _ _ R) as [[l v] Hl].
    exists S, D, b, loc, lab, l, v, root. split; [exact R|]. split; [exact Hu|].
    split; [apply (mr_ready _ _ _ _ _ _ _ _ _ _ _ R)|]. split.
    { rewrite (so_size _ _ _ _ _ _ _ _ _ _ PK _ _ _ _ _ Hs). intros E.
      assert (size loc = 0%nat) as Ez by (clear -E; lia). apply map_size_empty_inv in Ez.
      rewrite Ez, lookup_empty in Hroot. discriminate. }
    split; [exact Er|]. split; [exact Hroot|]. split; [exact Hl|].
    split; [apply (mr_lab _ _ _ _ _ _ _ _ _ _ _ R [] _ Hl)|].
    split; [apply (dv_root _ _ (mr_D _ _ _ _ _ _ _ _ _ _ _ R) l v Hl)|].
    destruct (mr_dict _ _ _ _ _ _ _ _ _ _ _ R) as [Hd1 _]. specialize (Hd1 [] l v Hl).
    assert (Ek : keyof D [] = l) by (unfold keyof; rewrite (label_some D [] l v Hl); reflexivity).
    rewrite Ek, final_value in Hd1. destruct (in_dec (List.list_eq_dec N.eq_dec) l (updated ops)) as [|Hn]; [assumption|].
    apply (value_after_none vs) in Hn. congruence.
  Qed.

  Lemma i_update_as_find k p : i_find dbg vs i m k = Ret (Some p) -> T = nodes_for e (updated ops) + 2 ->
    i_yields i cb e (updated ops) (i_update dbg vs i m k) (fun '(r, m') => r = UPtr (Some p) /\
      i_size dbg vs i m' = i_size dbg vs i m /\ m_nlm _ _ m' = m_nlm _ _ m /\ i_nodes dbg vs i m' = i_nodes dbg vs i m /\
      exists S D b b' loc, inv m S D (final vs ops) b loc /\ inv m' S D (final vs ops) b' loc).
  Proof.
    intros Hfind ET. destruct (i_supported_limit _ _ _ _ _ Hvi Hsup) as (He & Hcb & _).
    destruct reach_K as (S & D & b & loc & Hi).
    assert (Hdom : dom (final vs ops) = list_to_set (updated ops)) by apply dom_final.
    assert (HB0 : i_traps dbg i = true -> final vs ops !! [0] = None).
    { intros Ht. apply not_elem_of_dom. rewrite Hdom. intros H. apply elem_of_list_to_set, elem_of_list_In in H. apply (Hnt Ht H). }
    unfold i_find in Hfind. pose proof Hi as Hi0. destruct Hi0 as [(_ & _ & _ & _ & Hf)|[lab R]].
    { exfalso. unfold map_find in Hfind. destruct (check_key k) as [[]| | | |]; try discriminate Hfind. cbn [bind] in Hfind.
      destruct (so_fresh _ _ _ _ _ _ _ _ _ _ PK _ _ _ (mf_store _ _ _ _ _ _ Hf)) as [Hz _]. rewrite Hz, orb_true_r in Hfind.
      discriminate Hfind. }
    apply (wpx_i_yields vs); [exact Hvi|exact Hsup|]. rewrite <- ET.
    eapply wpx_mono.
    { apply (update_like_find dbg _ _ _ _ e _ _ _ _ _ PK He m S D _ b loc lab k p R HB0); [|exact Hfind].
      cbn [i_lim l_max]. rewrite Hdom. unfold nodes_for in HT. clear -HT. lia. }
    intros [r m'] (-> & (E1 & E2 & E3 & E4 & E5 & E6) & b' & R' & Hq).
    assert (Hi' : inv m' S D (final vs ops) b' loc) by (right; eauto).
    split; [reflexivity|]. split; [exact E6|]. split; [exact E3|]. split.
    { pose proof (minv_capa _ _ _ _ _ _ _ _ _ _ PK m _ _ _ _ _ Hi) as (_ & _ & Hs & _).
      pose proof (minv_capa _ _ _ _ _ _ _ _ _ _ PK m' _ _ _ _ _ Hi') as (_ & _ & Hs' & _). unfold i_nodes. congruence. }
    exists S, D, b, b', loc. auto.
  Qed.

  (** The assertion key != 0. *)
  Lemma i_trap_K : dbg = true -> i_traps dbg i = true -> updated ops <> [] ->
    nodes_for e (updated ops) + 1 < node_limit (i_mf i) (8 + e) -> i_update dbg vs i m [0] = AssertFail.
  Proof.
    intros Hd Ht Hne Hroom. destruct (root_K Hne) as (S & D & b & loc & lab & l & v & root & R & Hu & Hrd & Hsz & Er & Hroot & HD & Hlab & Hl & Hin).
    destruct (i_supported_limit _ _ _ _ _ Hvi Hsup) as (He & _).
    pose proof (mr_store _ _ _ _ _ _ _ _ _ _ _ R) as Hs.
    assert (Hl0 : l <> [0]) by (intros ->; exact (Hnt Ht Hin)).
    assert (Hok0 : okey [0]) by (exists []; split; [reflexivity|intros []]).
    destruct (so_compare _ _ _ _ _ _ _ _ _ _ PK _ _ _ _ _ _ root [0] l v Hs Hroot Hlab (or_intror (conj Hok0 Hl))) as [_ Hcmp].
    specialize (Hcmp (fun E => Hl0 (eq_sym E))). rewrite (lcp_0 l Hl Hl0) in Hcmp.
    unfold i_update, map_update, update_body. rewrite (check_key_ok [0] Hok0), bind_ret, (proj2 (N.eqb_neq _ _) Hsz), Er, bind_ret.
    pose proof (mr_codes _ _ _ _ _ _ _ _ _ _ _ R) as HC.
    assert (Hc0 : vget (m_codes _ _ m) 0 = Ret 0).
    { unfold vget. rewrite (co_len _ _ _ HC). change (0 <? 256) with true. cbn iota. f_equal. apply (co_0 _ _ _ HC). }
    assert (Hstep : update_steps (i_trie dbg i) (i_nlm vs i) (m_lambda _ _ m) (m_trie _ _ m) (m_nlm _ _ m) root 0
                    = Ret (root, 0, m_trie _ _ m, m_nlm _ _ m)).
    { unfold update_steps. apply loop_unroll_exit. cbn beta iota. rewrite (mr_lam _ _ _ _ _ _ _ _ _ _ _ R).
      rewrite (proj2 (N.leb_gt _ _)) by apply pow2_pos. reflexivity. }
    assert (Hleaf : forall key, add_leaf (i_trie dbg i) (i_nlm vs i) root 0 key (m_trie _ _ m) (m_nlm _ _ m) = AssertFail).
    { intros key. unfold add_leaf. destruct (HK _ _ _ _ _ Hs) as [_ Hp].
      rewrite (Hp root Hd Ht Hroot ltac:(clear -Hu Hroom; lia) He). reflexivity. }
    rewrite (loop_unroll_bad _ _ AssertFail); [reflexivity| |discriminate].
    cbn beta iota. rewrite Hcmp, bind_ret. cbn iota. change (N.of_nat 0) with 0.
    change (advance [0] 0) with [0]. rewrite Hstep, bind_ret. cbn [deref]. rewrite bind_ret, Hc0, bind_ret.
    change (0 =? 255) with false. cbn iota. rewrite !bind_ret. cbn iota beta.
    assert (Hsym : forall d, make_symb d (m_codes _ _ m) 0 0 = Ret 0) by (intros []; unfold make_symb; rewrite Hc0; reflexivity).
    rewrite Hsym, bind_ret, Hleaf. reflexivity.
  Qed.
End reach.

(** The first comparison decides. *)
Section root.
  Context (dbg : bool) (vs : nat) (i : inst) (m : i_map dbg vs i) (r : N) (key : list N).
  Hypotheses (Hck : check_key key = Ret tt) (Hne : key <> []) (Hrd : m_ready _ _ m = true)
    (Hsz : t_size _ (m_trie _ _ m) <> 0) (Er : t_get_root _ (m_trie _ _ m) = Ret r).
  Lemma i_root_ub : n_compare (i_nlm vs i) (m_nlm _ _ m) r key = UB -> i_find dbg vs i m key = UB /\ i_update dbg vs i m key = UB.
  Proof.
    intros Hc. split.
    - unfold i_find, map_find. rewrite Hck, bind_ret, Hrd, (proj2 (N.eqb_neq _ _) Hsz). cbn [negb orb]. rewrite Er, bind_ret.
      rewrite (loop_unroll_bad _ _ UB); [reflexivity| |discriminate]. cbn beta iota. destruct key; [congruence|]. rewrite Hc. reflexivity.
    - unfold i_update, map_update, update_body. rewrite Hck, bind_ret, (proj2 (N.eqb_neq _ _) Hsz), Er, bind_ret.
      rewrite (loop_unroll_bad _ _ UB); [reflexivity| |discriminate]. cbn beta iota. destruct key; [congruence|]. rewrite Hc. reflexivity.
  Qed.
  Lemma i_root_found p j : n_compare (i_nlm vs i) (m_nlm _ _ m) r key = Ret (Some p, j) ->
    i_find dbg vs i m key = Ret (Some p) /\ i_update dbg vs i m key = Ret (UPtr (Some p), m).
  Proof.
    intros Hc. split.
    - unfold i_find, map_find. rewrite Hck, bind_ret, Hrd, (proj2 (N.eqb_neq _ _) Hsz). cbn [negb orb]. rewrite Er, bind_ret.
      apply loop_unroll_exit. cbn beta iota. destruct key; [congruence|]. rewrite Hc. reflexivity.
    - unfold i_update, map_update, update_body. rewrite Hck, bind_ret, (proj2 (N.eqb_neq _ _) Hsz), Er, bind_ret.
      apply loop_unroll_exit. cbn beta iota. destruct key; [congruence|]. rewrite Hc. reflexivity.
  Qed.
End root.

Lemma nul_pack dbg vs i cb e ks : valid_inst i -> i_supported vs i cb e ks ->
  exists K : ipack dbg vs i e (N.max 16 cb) (nodes_for e ks + 2), pack_nul K.
Proof.
  intros Hvi Hsup. destruct (i_supported_limit _ _ _ _ _ Hvi Hsup) as (He & Hcb & Hroom & _).
  apply inst_pack_nul; [exact Hvi|apply Hsup|lia|lia].
Qed.

Lemma i_nul_first dbg vs i cb e k z w : valid_inst i -> i_supported vs i cb e [k ++ z] ->
  N.of_nat (length (k ++ z)) + N.of_nat vs < 2 ^ 64 -> valid_key k -> List.last z 1 = 0 -> length w = vs ->
  exists m0 m1 m2 p, i_new dbg vs i cb (2 ^ e) = Ret m0 /\
    i_update dbg vs i m0 (k ++ z) = Ret (UPtr (Some p), m1) /\ i_size dbg vs i m1 = 1 /\
    map_write _ _ m1 p w = Ret m2 /\
    if i_compact i then i_find dbg vs i m2 k = UB /\ i_update dbg vs i m2 k = UB
    else exists q, i_find dbg vs i m2 k = Ret (Some q) /\ i_update dbg vs i m2 k = Ret (UPtr (Some q), m2) /\
      map_read _ _ m2 q = Ret (firstn vs (z ++ w)).
Proof.
  intros Hvi Hsup Hsm Hk Hz Hw. pose proof (proj1 Hsup) as Hvs. destruct (i_supported_limit _ _ _ _ _ Hvi Hsup) as (He & Hcb & _).
  destruct (valid_okey k Hk) as [Hok Hb]. destruct (okey_last k Hok) as [Hk0 _].
  assert (Hz0 : z <> []) by (intros ->; discriminate).
  destruct (nul_pack dbg vs i cb e _ Hvi Hsup) as [K HK]. pose proof (ip_ok _ _ _ _ _ _ K) as PK.
  destruct (map_new_ok _ _ _ _ _ _ _ _ _ _ PK He cb Hcb) as (m0 & Em0 & Hf); [reflexivity|]. exists m0.
  destruct (so_fresh _ _ _ _ _ _ _ _ _ _ PK _ _ _ (mf_store _ _ _ _ _ _ Hf)) as [Hsz _].
  destruct (so_first _ _ _ _ _ _ _ _ _ _ PK _ _ _ (k ++ z) (mf_store _ _ _ _ _ _ Hf)) as (p & t' & n' & r & E & Hs & Hp).
  { rewrite i_vs. exact Hsm. }
  destruct (so_write _ _ _ _ _ _ _ _ _ _ PK _ _ _ _ _ _ r p (k ++ z) _ w Hs (lookup_singleton _ _) Hp (lookup_singleton _ _))
    as (h & Eh & Hs2 & _); [rewrite i_vs; exact Hw|].
  set (m1 := mkMap _ _ (m_ready _ _ m0) (m_lambda _ _ m0) t' n' (m_codes _ _ m0) (m_num_codes _ _ m0) (add64 (m_size _ _ m0) 1)).
  set (m2 := set_heap _ _ m1 h).
  exists m1, m2, p. split; [exact Em0|]. split; [|split; [|split]].
  - unfold i_update, map_update, update_body. rewrite check_key_any by assumption. rewrite bind_ret, Hsz, N.eqb_refl.
    rewrite (mf_ready _ _ _ _ _ _ Hf). cbn [negb]. rewrite bind_ret, E, bind_ret. unfold m1. rewrite (mf_ready _ _ _ _ _ _ Hf). reflexivity.
  - unfold i_size, map_size, m1. cbn [m_size]. rewrite (mf_size _ _ _ _ _ _ Hf). reflexivity.
  - unfold map_write, m1. cbn [m_nlm]. rewrite Eh, bind_ret. reflexivity.
  - rewrite insert_singleton in Hs2.
    assert (Hsz2 : t_size _ t' <> 0).
    { rewrite (so_size _ _ _ _ _ _ _ _ _ _ PK _ _ _ _ _ Hs), map_size_singleton. discriminate. }
    destruct (so_root _ _ _ _ _ _ _ _ _ _ PK _ _ _ _ _ Hs) as (r' & Er & Hr'). rewrite lookup_singleton in Hr'. injection Hr' as <-.
    destruct (HK _ _ _ _ _ Hs2) as [Hp2 _]. specialize (Hp2 [] r _ _ (lookup_singleton _ _) (lookup_singleton _ _)).
    destruct (i_compact i) eqn:Ha; destruct Hp2 as [_ Hc].
    + apply (i_root_ub dbg vs i m2 r k (check_key_ok k Hok) Hk0 (mf_ready _ _ _ _ _ _ Hf) Hsz2 Er (Hc k z eq_refl Hk0 Hz0)).
    + destruct (Hc k z eq_refl Hk0) as (id & Hid & Hc').
      exists (id, N.of_nat (length k)). apply and_assoc. split.
      * eapply (i_root_found dbg vs i m2 r k (check_key_ok k Hok) Hk0 (mf_ready _ _ _ _ _ _ Hf) Hsz2 Er). exact Hc'.
      * unfold map_read, m2, m1, set_heap. cbn [m_nlm]. unfold hp_read, hp_block. cbn [fst snd]. rewrite Hid, bind_ret, i_vs.
        unfold slice. rewrite (proj2 (N.leb_le _ _)) by (rewrite !app_length, Hw; lia).
        rewrite !Nat2N.id, skipn_app, skipn_all, Nat.sub_diag. reflexivity.
Qed.

Lemma i_nul_alone dbg vs i cb e ops m k z : valid_inst i -> i_supported vs i cb e (updated ops) -> Forall (valid_op vs) ops ->
  i_no_trap dbg i (updated ops) -> i_reaches dbg vs i cb e ops m -> updated ops <> [] -> (forall k', In k' (updated ops) -> k' = k) ->
  List.last z 1 = 0 ->
  if i_compact i then exists p, i_find dbg vs i m k = Ret (Some p) /\ i_update dbg vs i m (k ++ z) = Ret (UPtr (Some p), m)
  else (forall v, value_after vs k None ops = Some v -> z `prefix_of` v ->
    exists p, i_find dbg vs i m (k ++ z) = Ret (Some p) /\ i_update dbg vs i m (k ++ z) = Ret (UPtr (Some p), m) /\ map_read _ _ m p = UB).
Proof.
  intros Hvi Hsup Hv Hnt Hr Hne Hall Hz. destruct (nul_pack dbg vs i cb e _ Hvi Hsup) as [K HK].
  destruct (root_K dbg vs i cb e _ K ops m HK Hvi Hsup ltac:(lia) Hv Hnt Hr Hne)
    as (S & D & b & loc & lab & l & v & root & R & _ & Hrd & Hsz & Er & Hroot & HD & Hlab & Hl & Hin).
  pose proof (Hall l Hin) as ->. pose proof (mr_store _ _ _ _ _ _ _ _ _ _ _ R) as Hs.
  destruct (okey_last k Hl) as [Hk0 Hk1]. assert (Hz0 : z <> []) by (intros ->; discriminate).
  assert (Hkz : k ++ z <> []) by (intros H; apply app_eq_nil in H as [H _]; exact (Hk0 H)).
  assert (Hck : check_key (k ++ z) = Ret tt).
  { destruct (exists_last Hz0) as (z' & c & ->). rewrite last_last in Hz. subst c.
    unfold check_key. rewrite app_assoc, last_last. destruct k; [congruence|reflexivity]. }
  destruct (HK _ _ _ _ _ Hs) as [Hp2 _]. specialize (Hp2 [] root _ _ Hroot Hlab).
  destruct (i_compact i) eqn:Ha; destruct Hp2 as [Hc _].
  - destruct (Hc (or_intror Hl) z) as (p & [i0 F1] & _ & F3 & _). destruct (F3 Hl) as [i1 F2]. exists p. split.
    + apply (i_root_found dbg vs i m root k (check_key_ok k Hl) Hk0 Hrd Hsz Er p i0 F1).
    + apply (i_root_found dbg vs i m root (k ++ z) Hck Hkz Hrd Hsz Er p i1 F2).
  - intros v' Hv' Hp. assert (v' = v) as ->.
    { destruct (mr_dict _ _ _ _ _ _ _ _ _ _ _ R) as [Hd _]. specialize (Hd _ _ _ HD).
      assert (Ek : keyof D [] = k) by (unfold keyof, label; rewrite HD; reflexivity).
      rewrite Ek, final_value in Hd. congruence. }
    destruct (Hc z) as (_ & id & Hf & Hvl & _ & Hc'). specialize (Hc' Hkz).
    destruct (plain_cmp_cases z v (N.of_nat (length k))) as (C1 & _ & _).
    rewrite (C1 Hp), bind_ret in Hc'. cbn [fst snd] in Hc'.
    eexists. apply and_assoc. split; [apply (i_root_found dbg vs i m root (k ++ z) Hck Hkz Hrd Hsz Er _ _ Hc')|].
    unfold map_read, hp_read, hp_block. cbn [fst snd]. rewrite Hf, bind_ret, i_vs. unfold slice.
    destruct (N.leb_spec (N.of_nat (length k) + N.of_nat (length z) + N.of_nat vs) (N.of_nat (length (k ++ v)))) as [Hle|_]; [|reflexivity].
    exfalso. rewrite app_length, Hvl in Hle. destruct z; [congruence|]. simpl in Hle. lia.
Qed.

Lemma i_nul_update dbg vs i cb e ops m k p : valid_inst i ->
  i_supported vs i cb e (updated ops) -> Forall (valid_op vs) ops -> i_no_trap dbg i (updated ops) ->
  i_reaches dbg vs i cb e ops m -> i_find dbg vs i m k = Ret (Some p) ->
  i_yields i cb e (updated ops) (i_update dbg vs i m k) (fun '(r, m') => r = UPtr (Some p) /\
    i_size dbg vs i m' = i_size dbg vs i m /\ m_nlm _ _ m' = m_nlm _ _ m /\ i_nodes dbg vs i m' = i_nodes dbg vs i m /\
    forall k', valid_key k' -> N.of_nat (length k') < 2 ^ 64 -> i_find_value dbg vs i m' k' = i_find_value dbg vs i m k').
Proof.
  intros Hvi Hsup Hv Hnt Hr Hf. destruct (nul_pack dbg vs i cb e _ Hvi Hsup) as [K HK].
  destruct (i_supported_limit _ _ _ _ _ Hvi Hsup) as (He & _).
  pose proof (i_update_as_find dbg vs i cb e _ K ops m HK Hvi Hsup ltac:(lia) Hv Hnt Hr k p Hf eq_refl) as [([r m'] & E & H)|H]; [left|right; exact H].
  exists (r, m'). split; [exact E|]. destruct H as (H1 & H2 & H3 & H4 & S & D & b & b' & loc & Hi & Hi').
  split; [exact H1|]. split; [exact H2|]. split; [exact H3|]. split; [exact H4|]. intros k' Hk' Hl.
  rewrite (i_inv_find dbg vs i cb e _ K He m S D _ b loc k' Hi Hk' Hl).
  apply (i_inv_find dbg vs i cb e _ K He m' S D _ b' loc k' Hi' Hk' Hl).
Qed.

Lemma i_update_trap vs i cb e ops m : valid_inst i -> i_traps true i = true ->
  i_supported vs i cb e (updated ops ++ [[0]]) -> Forall (valid_op vs) ops -> ~ In [0] (updated ops) -> updated ops <> [] ->
  i_reaches true vs i cb e ops m -> i_update true vs i m [0] = AssertFail.
Proof.
  intros Hvi Ht Hsup Hv Hn Hne Hr. pose proof (nodes_for_app e (updated ops) [[0]]) as Hle.
  destruct (nul_pack true vs i cb e _ Hvi Hsup) as [K HK].
  destruct (i_supported_limit _ _ _ _ _ Hvi Hsup) as (_ & _ & Hroom & _).
  assert (Hsup' : i_supported vs i cb e (updated ops)).
  { destruct Hsup as (H1 & H2 & H3 & H4). split; [exact H1|]. split; [exact H2|]. split; [lia|].
    destruct (alphabet_app (updated ops) [[0]]) as [Ha _]. apply subseteq_size in Ha. lia. }
  apply (i_trap_K true vs i cb e _ K ops m HK Hvi Hsup' ltac:(lia) Hv ltac:(intros _; exact Hn) Hr eq_refl Ht Hne). lia.
Qed.
