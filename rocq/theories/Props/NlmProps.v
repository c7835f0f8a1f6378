(** Properties of the label stores: C17, C40, C41, C42 (specification: NlmSpec.v). *)
From Verif.Props Require Import NlmSpec.
From Verif.Proofs Require Import NlmHistP FastP.
Local Open Scope N_scope.

(** ** C40 Label stores return the stored label and value *)
Theorem C40_bonsai_insert : forall vs s P n m x k, bonsai_labels (bonsai_nlm vs s) P n m ->
  x < P -> m !! x = None -> valid_label vs k ->
  exists p n', n_insert (bonsai_nlm vs s) n x k = Ret (p, n') /\
    hp_read (n_heap (bonsai_nlm vs s) n') p vs = Ret (replicate vs 0).
Proof.
  intros vs [|c] P n m x k Hr Hx Hm Hk.
  - exact (bl_insert_total _ _ _ _ (pbn_ok vs) P n m x k Hr Hx Hm Hk).
  - exact (bl_insert_total _ _ _ _ (cbn_ok (cs_val c) vs (chunk_width c)) P n m x k Hr Hx Hm Hk).
Qed.
Theorem C40_bonsai_compare : forall vs s P n m x k l v, bonsai_labels (bonsai_nlm vs s) P n m ->
  m !! x = Some (l, v) -> valid_label vs k -> comparable k l ->
  (k = l -> exists p i, n_compare (bonsai_nlm vs s) n x k = Ret (Some p, i) /\
     hp_read (n_heap (bonsai_nlm vs s) n) p vs = Ret v /\
     forall w, length w = vs -> exists h, hp_write (n_heap (bonsai_nlm vs s) n) p w = Ret h) /\
  (k <> l -> exists i, n_compare (bonsai_nlm vs s) n x k = Ret (None, N.of_nat i) /\ common_prefix k l i).
Proof.
  intros vs [|c] P n m x k l v Hr Hm Hk Hc.
  - exact (bl_compare _ _ _ _ (pbn_ok vs) P n m x k l v Hr Hm Hk Hc).
  - exact (bl_compare _ _ _ _ (cbn_ok (cs_val c) vs (chunk_width c)) P n m x k l v Hr Hm Hk Hc).
Qed.
Theorem C40_fkhash_append : forall vs s c n m k, (1 <= vs)%nat -> fkhash_labels (fkhash_nlm vs s) c n m ->
  c + 1 < 2 ^ 57 -> valid_label vs k ->
  (exists p n', n_append (fkhash_nlm vs s) n k = Ret (p, n') /\
     hp_read (n_heap (fkhash_nlm vs s) n') p vs = Ret (replicate vs 0)) /\
  (exists n', n_append_dummy (fkhash_nlm vs s) n = Ret n') /\ n_size (fkhash_nlm vs s) n = c.
Proof.
  intros vs [|cz] c n m k Hvs Hr Hc Hk.
  - exact (fl_append_total _ _ _ _ (pfn_ok vs) c n m k Hr Hc Hk).
  - exact (fl_append_total _ _ _ _ (cfn_ok (cs_val cz) vs (chunk_width cz) Hvs) c n m k Hr Hc Hk).
Qed.
Theorem C40_fkhash_compare : forall vs s c n m x k l v, (1 <= vs)%nat -> fkhash_labels (fkhash_nlm vs s) c n m ->
  m !! x = Some (l, v) -> valid_label vs k -> comparable k l ->
  (k = l -> exists p i, n_compare (fkhash_nlm vs s) n x k = Ret (Some p, i) /\
     hp_read (n_heap (fkhash_nlm vs s) n) p vs = Ret v /\
     forall w, length w = vs -> exists h, hp_write (n_heap (fkhash_nlm vs s) n) p w = Ret h) /\
  (k <> l -> exists i, n_compare (fkhash_nlm vs s) n x k = Ret (None, N.of_nat i) /\ common_prefix k l i).
Proof.
  intros vs [|cz] c n m x k l v Hvs Hr Hm Hk Hc.
  - exact (fl_compare _ _ _ _ (pfn_ok vs) c n m x k l v Hr Hm Hk Hc).
  - exact (fl_compare _ _ _ _ (cfn_ok (cs_val cz) vs (chunk_width cz) Hvs) c n m x k l v Hr Hm Hk Hc).
Qed.

(** ** C41 Expansion moves every label to its new position *)
(** The result holds exactly the renamed labels (and C40 applies to it again). *)
Theorem C41_expand : forall vs s b n m f nm, bonsai_labels (bonsai_nlm vs s) (2 ^ b) n m -> b <= 55 ->
  position_map (2 ^ b) f nm -> (forall x e, m !! x = Some e -> is_Some (f x)) ->
  exists n' m', n_expand (bonsai_nlm vs s) n nm = Ret n' /\ renamed f m m' /\
    bonsai_labels (bonsai_nlm vs s) (2 * 2 ^ b) n' m'.
Proof.
  intros vs [|c] b n m f nm Hr Hb Hnm Hd.
  - exact (bl_expand_total _ _ _ _ (pbn_ok vs) b n m f nm Hr Hb Hnm Hd).
  - exact (bl_expand_total _ _ _ _ (cbn_ok (cs_val c) vs (chunk_width c)) b n m f nm Hr Hb Hnm Hd).
Qed.
(** Spelled out: label and value of every old position are found at the new position, and the number of
    labels is the same. *)
Theorem C41_moved : forall vs s b n m f nm, bonsai_labels (bonsai_nlm vs s) (2 ^ b) n m -> b <= 55 ->
  position_map (2 ^ b) f nm -> (forall x e, m !! x = Some e -> is_Some (f x)) ->
  exists n', n_expand (bonsai_nlm vs s) n nm = Ret n' /\
    n_size (bonsai_nlm vs s) n' = n_size (bonsai_nlm vs s) n /\
    forall x y l v, m !! x = Some (l, v) -> f x = Some y -> N.of_nat (length l) + N.of_nat vs < 2 ^ 64 ->
      exists p i, n_compare (bonsai_nlm vs s) n' y l = Ret (Some p, i) /\
        hp_read (n_heap (bonsai_nlm vs s) n') p vs = Ret v.
Proof.
  intros vs s b n m f nm Hr Hb Hnm Hd. destruct (C41_expand vs s b n m f nm Hr Hb Hnm Hd) as (n' & m' & E & Hren & Hr').
  exists n'. split; [exact E|]. split.
  - assert (Hsz : size m' = size m).
    { destruct (bl_dom _ _ _ _ Hr) as (_ & Hdom & _). destruct Hnm as (_ & _ & Hinj & _).
      apply (rename_size f m m').
      - exact Hd.
      - intros x y z [ex Hx] [ey Hy]. apply Hinj; [apply (Hdom x ex Hx)|apply (Hdom y ey Hy)].
      - exact Hren. }
    destruct s as [|c]; simpl.
    + destruct (bl_rep _ _ _ _ (pbn_ok vs) _ _ _ Hr) as (_ & _ & ->).
      destruct (bl_rep _ _ _ _ (pbn_ok vs) _ _ _ Hr') as (_ & _ & ->). rewrite Hsz. reflexivity.
    + rewrite (cr_size _ _ _ _ _ (bl_rep _ _ _ _ (cbn_ok (cs_val c) vs (chunk_width c)) _ _ _ Hr)).
      rewrite (cr_size _ _ _ _ _ (bl_rep _ _ _ _ (cbn_ok (cs_val c) vs (chunk_width c)) _ _ _ Hr')). rewrite Hsz. reflexivity.
  - intros x y l v Hx Hf Hl. assert (Hm' : m' !! y = Some (l, v)) by (apply Hren; eauto).
    destruct (bl_dom _ _ _ _ Hr) as (_ & _ & Hlab). destruct (Hlab _ _ _ Hx) as [Hol _].
    destruct (C40_bonsai_compare vs s _ n' m' y l l v Hr' Hm') as [H1 _].
    + split; [|exact Hl]. destruct Hol as [->|(t & -> & Ht)]; [left; reflexivity|right]. exists t. split; [reflexivity|].
      apply Forall_forall. intros c Hc ->. apply Ht. apply elem_of_list_In, Hc.
    + split; auto.
    + destruct (H1 eq_refl) as (p & i & E1 & E2 & _). eauto.
Qed.

(** ** C17 Label accounting is exact *)
(** [hp_total] is the number of bytes allocated for labels; counters are 64-bit words ([w64]). *)
Theorem C17_plain_bonsai : forall vs P n m, bonsai_labels (pbn_ops vs) P n m ->
  pbn_bytes n = w64 (hp_total (pbn_heap n)) /\ pbn_size n = w64 (N.of_nat (size m)).
Proof.
  intros vs P n m Hr. destruct (bl_rep _ _ _ _ (pbn_ok vs) _ _ _ Hr) as (_ & R & Hs). split; [apply (pr_bytes _ _ _ _ _ R)|exact Hs].
Qed.
Theorem C17_compact_bonsai : forall vs c P n m, bonsai_labels (cbn_ops (cs_val c) vs) P n m ->
  cbn_bytes n = w64 (hp_total (cbn_heap n)) /\ cbn_size n = w64 (N.of_nat (size m)).
Proof.
  intros vs c P n m Hr. pose proof (bl_rep _ _ _ _ (cbn_ok (cs_val c) vs (chunk_width c)) _ _ _ Hr) as R. split.
  - rewrite (cbn_total _ _ (chunk_width c) _ _ _ R). apply (cr_bytes _ _ _ _ _ R).
  - apply (cr_size _ _ _ _ _ R).
Qed.
Theorem C17_plain_fkhash : forall vs c n m, fkhash_labels (pfn_ops vs) c n m ->
  pfn_bytes n = w64 (hp_total (pfn_heap n)) /\ pfn_size n = c.
Proof.
  intros vs c n m Hr. destruct (fl_rep _ _ _ _ (pfn_ok vs) _ _ _ Hr) as (Hc & R). split; [apply (pr_bytes _ _ _ _ _ R)|exact Hc].
Qed.
(** The open buffer (chunk_buf_) is counted separately by alloc_bytes. *)
Theorem C17_compact_fkhash : forall vs cz c n m, (1 <= vs)%nat -> fkhash_labels (cfn_ops (cs_val cz) vs) c n m ->
  exists open, buf_bytes n = Ret open /\ cfn_size n = c /\
    exists released, hp_total (cfn_heap n) = released + N.of_nat (length open) /\ cfn_bytes n = w64 released.
Proof.
  intros vs cz c n m Hvs Hr. pose proof (fl_rep _ _ _ _ (cfn_ok (cs_val cz) vs (chunk_width cz) Hvs) _ _ _ Hr) as R.
  destruct (cfn_total _ _ _ _ _ (chunk_width cz) R) as (open & Eo & Et). exists open. split; [exact Eo|].
  split; [apply (fr_size _ _ _ _ _ R)|]. eexists. split; [exact Et|]. apply (fr_bytes _ _ _ _ _ R).
Qed.
(** Nothing is leaked: every allocated block belongs to a stored label. *)
Theorem C17_no_leak_plain : forall vs P n m, bonsai_labels (pbn_ops vs) P n m ->
  forall id blk, hp_find (pbn_heap n) id = Some blk ->
  exists x l v, vnth (pbn_ptrs n) x = Some id /\ m !! x = Some (l, v) /\ blk = l ++ v.
Proof.
  intros vs P n m Hr id blk Hf. destruct (bl_rep _ _ _ _ (pbn_ok vs) _ _ _ Hr) as (_ & R & _).
  destruct (pr_own _ _ _ _ _ R id blk Hf) as (x & Hx & Ex). destruct (pr_some _ _ _ _ _ R x id Hx Ex) as (l & v & Hm & _ & Hf').
  exists x, l, v. split; [exact Ex|]. split; [exact Hm|congruence].
Qed.

(** ** C42 Chunked label buffers hold exactly their labels *)
(** Chunk [c] of the Bonsai store covers the positions [c*cs .. c*cs+cs-1]. *)
Theorem C42_compact_bonsai : forall vs cz P n m, bonsai_labels (cbn_ops (cs_val cz) vs) P n m ->
  P = vlen (cbn_ptrs n) * cs_val cz /\
  forall c, c < vlen (cbn_ptrs n) ->
    (forall j, j < cs_val cz -> N.testbit (vnth (cbn_chunks n) c) j = true <-> is_Some (m !! (c * cs_val cz + j))) /\
    match vnth (cbn_ptrs n) c with
    | Some id => hp_find (cbn_heap n) id = Some (bonsai_bytes m (positions (c * cs_val cz) (N.to_nat (cs_val cz))))
    | None => forall j, j < cs_val cz -> m !! (c * cs_val cz + j) = None
    end.
Proof.
  intros vs cz P n m Hr. pose proof (bl_rep _ _ _ _ (cbn_ok (cs_val cz) vs (chunk_width cz)) _ _ _ Hr) as R.
  split; [apply (cr_P _ _ _ _ _ R)|]. intros c Hc.
  assert (Hbits : forall j, j < cs_val cz -> N.testbit (vnth (cbn_chunks n) c) j = true <-> is_Some (m !! (c * cs_val cz + j))).
  { intros j Hj. destruct (cr_words _ _ _ _ _ R c) as [_ W]; [rewrite (cr_len _ _ _ _ _ R); exact Hc|]. rewrite W by exact Hj.
    destruct (m !! _); split; intros; eauto; try discriminate. destruct H; discriminate. }
  split; [exact Hbits|]. pose proof (rep_block _ _ _ _ _ c R Hc) as Hb. unfold has_block in Hb.
  destruct (vnth (cbn_ptrs n) c) as [id|].
  - rewrite bonsai_bytes_ents by (eapply goodm_okm, (cr_good _ _ _ _ _ R)). apply Hb.
  - intros j Hj. destruct (m !! (c * cs_val cz + j)) as [e|] eqn:E; [|reflexivity]. exfalso.
    destruct (pos_join (cs_val cz) (chunk_width cz) c j Hj) as [D1 D2].
    pose proof (chunk_split (cs_val cz) (chunk_width cz) m _ e E) as Es. rewrite D1, D2 in Es. rewrite Hb in Es.
    destruct (ents m (c * cs_val cz) (N.to_nat j)); discriminate.
Qed.
(** Chunk [i] of the FK-hash store covers [cs] positions as well; the last, possibly partial one is the
    open buffer. *)
Theorem C42_compact_fkhash : forall vs cz c n m, (1 <= vs)%nat -> fkhash_labels (cfn_ops (cs_val cz) vs) c n m ->
  (forall i, i < vlen (cfn_ptrs n) -> exists id, vnth (cfn_ptrs n) i = Some id /\
     hp_find (cfn_heap n) id = Some (fkhash_bytes m (positions (i * cs_val cz) (N.to_nat (cs_val cz))))) /\
  vlen (cfn_ptrs n) * cs_val cz <= c <= (vlen (cfn_ptrs n) + 1) * cs_val cz /\
  buf_bytes n = Ret (fkhash_bytes m (positions (vlen (cfn_ptrs n) * cs_val cz) (N.to_nat (c - vlen (cfn_ptrs n) * cs_val cz)))).
Proof.
  intros vs cz c n m Hvs Hr. set (cs := cs_val cz). pose proof (chunk_width cz) as Hw. fold cs in Hw.
  pose proof (fl_rep _ _ _ _ (cfn_ok (cs_val cz) vs (chunk_width cz) Hvs) _ _ _ Hr) as R. fold cs in R.
  pose proof (goodm_okm _ _ _ (fr_good _ _ _ _ _ R)) as Hok. pose proof (fr_owns _ _ _ _ _ R) as Ro.
  pose proof (fr_len _ _ _ _ _ R) as Hlen. pose proof (cs_pos cs Hw) as Hcp.
  destruct (pos_split cs Hw (c - 1)) as [Ex Hm]. rewrite <- Hlen in Ex. set (C := vlen (cfn_ptrs n)) in *.
  set (q := (c - 1) mod cs) in *.
  assert (Hrange : C * cs <= c <= C * cs + cs) by lia.
  split; [|split].
  - intros i Hi. assert (Hl : flook n i = vnth (cfn_ptrs n) i).
    { unfold flook. fold C. rewrite (proj2 (N.ltb_lt _ _) Hi). reflexivity. }
    assert (Hic : (i + 1) * cs <= C * cs) by (apply N.mul_le_mono_r; lia).
    rewrite N.mul_add_distr_r, N.mul_1_l in Hic.
    assert (Hb : fblocks cs c m i = Some (encs (fents m (i * cs) (N.to_nat cs)))).
    { unfold fblocks, fcount. rewrite (proj2 (N.ltb_lt _ _)) by lia. do 3 f_equal. lia. }
    destruct (vnth (cfn_ptrs n) i) as [id|].
    + exists id. split; [reflexivity|]. destruct (ow_some _ _ _ Ro _ _ Hl) as (blk & Hf & HB).
      rewrite fkhash_bytes_fents by exact Hok. congruence.
    + apply (ow_none _ _ _ Ro) in Hl. congruence.
  - rewrite N.mul_add_distr_r, N.mul_1_l. exact Hrange.
  - rewrite fkhash_bytes_fents by exact Hok.
    assert (Hl : flook n C = cfn_buf n).
    { unfold flook. fold C. destruct (N.ltb_spec C C); [lia|]. rewrite N.eqb_refl. reflexivity. }
    unfold buf_bytes. rewrite <- Hl. destruct (flook n C) as [id|] eqn:E.
    + destruct (ow_some _ _ _ Ro _ _ E) as (blk & Hf & HB). unfold hp_block. rewrite Hf. f_equal.
      unfold fblocks, fcount in HB. destruct (_ <? _) in HB; [|discriminate]. injection HB as <-. do 2 f_equal. lia.
    + apply (ow_none _ _ _ Ro) in E. unfold fblocks in E. destruct (N.ltb_spec (C * cs) c); [discriminate|].
      replace (N.to_nat (c - C * cs)) with O by lia. reflexivity.
Qed.

(** ** The hypotheses are met *)
Definition lab (s : list N) : list N := s ++ [0].
(** Two labels inserted out of order into one chunk, one overwritten value, one expansion that swaps them. *)
Definition swap (i : N) : option N :=
  if i =? 5 then Some 70000 else if i =? 3 then Some 9 else None.
Definition swap_map : node_map := mkNM (2 ^ 16) (fun i => Ret (default UINT64_MAX (swap i))).
Lemma swap_position_map : position_map (2 ^ 16) swap swap_map.
Proof.
  split; [reflexivity|]. split; [reflexivity|]. unfold swap. split.
  - intros i j y _ _. destruct (N.eqb_spec i 5), (N.eqb_spec j 5), (N.eqb_spec i 3), (N.eqb_spec j 3); congruence.
  - intros i y _. destruct (i =? 5); [intros [= <-]; reflexivity|]. destruct (i =? 3); [intros [= <-]; reflexivity|discriminate].
Qed.
Definition demo_store (vs : nat) (s : bonsai_store) : outcome (option (list N) * option (list N) * N) :=
  let NO := bonsai_nlm vs s in
  let* n := n_new NO 16 in
  let* r := n_insert NO n 5 (lab [104; 105]) in
  let* r := n_insert NO (snd r) 3 (lab [111]) in
  let n := snd r in
  let* h := hp_write (n_heap NO n) (fst r) (repeat 7 vs) in
  let n := n_set_heap NO n h in
  let* n := n_expand NO n swap_map in
  let rd x k := let* c := n_compare NO n x k in
    match fst c with Some p => let* v := hp_read (n_heap NO n) p vs in Ret (Some v) | None => Ret None end in
  let* a := rd 70000 (lab [104; 105]) in
  let* b := rd 9 (lab [111]) in
  let* c := n_compare NO n 70000 (lab [104; 106; 107]) in
  Ret (a, b, snd c).
Example C41_example : forall s, demo_store 2 s = Ret (Some [0; 0], Some [7; 7], 1).
Proof. intros [|[]]; run. Qed.
(** The states of this example are states of the histories above. *)
Example C40_reachable : forall vs s, (vs <= 8)%nat -> exists n m, bonsai_labels (bonsai_nlm vs s) (2 ^ 17) n m /\
  m !! 70000 = Some (lab [104; 105], replicate vs 0) /\ m !! 9 = Some (lab [111], replicate vs 0).
Proof.
  intros vs s Hvs.
  assert (H0 : exists n, bonsai_labels (bonsai_nlm vs s) (2 ^ 16) n ∅).
  { destruct s as [|c].
    - destruct (bn_new _ _ _ _ (pbn_ok vs) 16) as (n & E & _); [lia|]. exists n. apply bl_new; [lia|exact E].
    - destruct (bn_new _ _ _ _ (cbn_ok (cs_val c) vs (chunk_width c)) 16) as (n & E & _); [lia|]. exists n. apply bl_new; [lia|exact E]. }
  destruct H0 as [n0 H0].
  assert (Hlab : forall t, (length t <= 2)%nat -> Forall (fun c => c <> 0) t -> valid_label vs (lab t)).
  { intros t Ht1 Ht. split; [right; exists t; auto|]. unfold lab. rewrite app_length. simpl. apply N.lt_trans with 100; [lia|reflexivity]. }
  assert (Evs : n_vs (bonsai_nlm vs s) = vs) by (destruct s; reflexivity).
  assert (L1 : valid_label vs (lab [104; 105])) by (apply Hlab; [simpl; lia|repeat constructor; discriminate]).
  assert (L2 : valid_label vs (lab [111])) by (apply Hlab; [simpl; lia|repeat constructor; discriminate]).
  destruct (C40_bonsai_insert vs s _ n0 ∅ 5 (lab [104; 105]) H0) as (p1 & n1 & E1 & _); [reflexivity|reflexivity|exact L1|].
  pose proof (bl_insert _ _ _ _ 5 (lab [104; 105]) p1 n1 H0 ltac:(reflexivity) (lookup_empty _) ltac:(rewrite Evs; exact L1) E1) as H1.
  destruct (C40_bonsai_insert vs s _ n1 _ 3 (lab [111]) H1) as (p2 & n2 & E2 & _); [reflexivity|reflexivity|exact L2|].
  pose proof (bl_insert _ _ _ _ 3 (lab [111]) p2 n2 H1 ltac:(reflexivity) ltac:(reflexivity) ltac:(rewrite Evs; exact L2) E2) as H2.
  destruct (C41_expand vs s 16 n2 _ swap swap_map H2) as (n3 & m3 & E3 & Hren & H3); [lia|apply swap_position_map| |].
  - intros x e Hx. destruct (decide (x = 3)) as [->|N3]; [eexists; reflexivity|]. rewrite lookup_insert_ne in Hx by congruence.
    destruct (decide (x = 5)) as [->|N5]; [eexists; reflexivity|]. rewrite lookup_insert_ne in Hx by congruence.
    rewrite lookup_empty in Hx. discriminate.
  - exists n3, m3. split; [exact H3|]. rewrite Evs in Hren. split; apply Hren; [exists 5|exists 3]; split; reflexivity.
Qed.
Definition demo_fk (vs : nat) (s : fkhash_store) (k : nat) : outcome (option (list N) * N * N) :=
  let NO := fkhash_nlm vs s in
  let* n := n_new NO 16 in
  let* n := (fix go k n := match k with
     | O => Ret n
     | S k => let* r := n_append NO n (lab [97; 98; 99]) in let* n := n_append_dummy NO (snd r) in go k n end) k n in
  let* c := n_compare NO n 0 (lab [97; 98; 99]) in
  let* v := match fst c with Some p => let* v := hp_read (n_heap NO n) p vs in Ret (Some v) | None => Ret None end in
  let* d := n_compare NO n (2 * N.of_nat k - 2) (lab [97; 98; 100]) in
  Ret (v, snd d, n_size NO n).
Example C40_example : forall s, demo_fk 3 s 50 = Ret (Some [0; 0; 0], 2, 100).
Proof. intros [|[]]; run. Qed.

Definition nlm_props := (@C17_plain_bonsai, @C17_compact_bonsai, @C17_plain_fkhash, @C17_compact_fkhash, @C17_no_leak_plain,
  @C40_bonsai_insert, @C40_bonsai_compare, @C40_fkhash_append, @C40_fkhash_compare, @C41_expand, @C41_moved,
  @C42_compact_bonsai, @C42_compact_fkhash).
Print Assumptions nlm_props.
