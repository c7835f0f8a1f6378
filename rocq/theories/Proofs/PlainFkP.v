(** plain_fkhash_trie represents a finite tree with consecutive node ids. *)
From Verif.Proofs Require Export PlainBonsaiP.
From Verif.Model Require Export PlainFkhashTrie.
Local Open Scope N_scope.

Section hash.
Context {HF : plain_hasher}.

Definition pf_cell (t : pf_trie) (i : N) : cell :=
  if cv_val (pf_ids t) i =? 0 then Vac else Full (cv_val (pf_table t) i).
Definition pf_id (t : pf_trie) (i : N) : N := cv_val (pf_ids t) i.

Record pf_shape (mf b sb : N) (t : pf_trie) : Prop := {
  fs_b : 16 <= b <= 56;
  fs_sb : b + sb < 64;
  fs_mf : 1 <= mf <= 99;
  fs_capa : pf_capa t = mkP2 b (N.ones b);
  fs_symb : pf_symb t = mkP2 sb (N.ones sb);
  fs_max : pf_max t = max_size_of (2 ^ b) mf;
  fs_wf : cv_wf (pf_table t);
  fs_size : cv_size (pf_table t) = 2 ^ b;
  fs_width : cv_width (pf_table t) = b + sb;
  fs_iwf : cv_wf (pf_ids t);
  fs_isize : cv_size (pf_ids t) = 2 ^ b;
  fs_iwidth : cv_width (pf_ids t) = b }.
(** [dbg]: in builds with assertions the edge (root, symbol 0) must not be used. *)
Record pf_rep (dbg : bool) (mf b sb : N) (t : pf_trie) (loc : gmap (list N) N) : Prop := {
  fr_shape : pf_shape mf b sb t;
  fr_trep : trep (2 ^ b) sb 0 (vhome b) (pf_cell t) (pf_id t) loc;
  fr_cnt : countb (fun i => is_full (pf_cell t i)) (2 ^ b) + 1 = pf_size t;
  fr_size : pf_size t = N.of_nat (size loc);
  fr_le : pf_size t <= pf_max t;
  fr_ids : forall p x, loc !! p = Some x -> x < pf_size t;
  fr_dbg : dbg = true -> loc !! [0] = None }.
Definition pf_fresh (mf b sb : N) (t : pf_trie) : Prop :=
  pf_shape mf b sb t /\ pf_size t = 0 /\ forall i, i < 2 ^ b -> pf_cell t i = Vac.

Lemma pf_new_ok mf cb sb : 1 <= mf <= 99 -> N.max 16 cb <= 56 -> N.max 16 cb + sb < 64 ->
  exists t, pf_new mf cb sb = Ret t /\ pf_fresh mf (N.max 16 cb) sb t.
Proof.
  intros Hmf Hb Hsb. unfold pf_new, trie_min_capa_bits.
  set (b := N.max 16 cb) in *. assert (16 <= b) by lia.
  rewrite p2_new_eq by lia. rewrite bind_ret. rewrite p2_new_eq by lia. rewrite bind_ret.
  cbn [p2_bits]. rewrite p2_size_ones by lia.
  assert (Hcb := capa_bound b (b + sb) ltac:(lia) Hsb).
  assert (Hcb2 := capa_bound b b ltac:(lia) ltac:(lia)).
  pose proof (cv_new_eq (2 ^ b) (b + sb) Hsb Hcb) as E. rewrite E, bind_ret.
  assert (Hb64 : b < 64) by lia.
  pose proof (cv_new_eq (2 ^ b) b Hb64 Hcb2) as E2. rewrite E2, bind_ret.
  eexists. split; [reflexivity|].
  assert (H0 : 0 < b + sb) by lia. assert (Hb0 : 0 < b) by lia.
  destruct (cv_new_wf _ _ _ H0 Hsb Hcb E) as (Hwf & Hs & Hw).
  destruct (cv_new_wf _ _ _ Hb0 Hb64 Hcb2 E2) as (Hwf2 & Hs2 & Hw2).
  split; [|split; [reflexivity|]].
  - split; simpl; auto.
  - intros i Hi. unfold pf_cell. cbn [pf_ids].
    rewrite (cv_new_val (2 ^ b) b _ i Hb0 Hb64 Hcb2 E2 Hi). reflexivity.
Qed.
Lemma pf_max_facts mf b sb t : pf_shape mf b sb t -> 655 <= pf_max t /\ pf_max t + 600 < 2 ^ b.
Proof.
  intros Hsh. rewrite (fs_max _ _ _ _ Hsh). pose proof (fs_b _ _ _ _ Hsh).
  destruct (ms_ok2_facts b mf ltac:(lia) (fs_mf _ _ _ _ Hsh)) as (_ & _ & H3). apply H3. lia.
Qed.

Lemma pf_add_root_ok dbg mf b sb t : pf_fresh mf b sb t ->
  exists t', pf_add_root t = Ret t' /\ pf_rep dbg mf b sb t' {[ [] := 0 ]}.
Proof.
  intros (Hsh & Hz & Hv). unfold pf_add_root. rewrite Hz. rewrite assert_true by reflexivity.
  rewrite bind_ret. eexists. split; [reflexivity|].
  pose proof (fs_b _ _ _ _ Hsh) as Hb.
  split.
  - destruct Hsh. split; auto.
  - apply trep_root_only. intros i k Hi. change (pf_cell t i <> Full k). rewrite Hv by exact Hi. discriminate.
  - cbn [pf_size]. change (countb (fun i => is_full (pf_cell t i)) (2 ^ b) + 1 = 1).
    rewrite countb_const_false; [reflexivity|]. intros i Hi. rewrite Hv by exact Hi. reflexivity.
  - cbn [pf_size]. rewrite map_size_singleton. reflexivity.
  - cbn [pf_size pf_max]. pose proof (pf_max_facts _ _ _ _ Hsh). lia.
  - intros p x Hp. apply lookup_singleton_Some in Hp as [_ <-]. cbn [pf_size]. lia.
  - intros _. apply lookup_singleton_ne. discriminate.
Qed.

Section pf.
  Context (mf b sb : N) (t : pf_trie).
  Hypothesis Hsh : pf_shape mf b sb t.

  Lemma pf_Mpos : 0 < 2 ^ b. Proof. apply pow2_pos. Qed.
  Lemma pf_M64 : 2 ^ b <= 2 ^ 64. Proof. apply pow2_le. pose proof (fs_b _ _ _ _ Hsh). lia. Qed.
  Lemma pf_get i : i < 2 ^ b -> cv_get (pf_table t) i = Ret (cv_val (pf_table t) i).
  Proof. intros Hi. apply cv_get_ok; [apply Hsh|]. rewrite (fs_size _ _ _ _ Hsh). exact Hi. Qed.
  Lemma pf_geti i : i < 2 ^ b -> cv_get (pf_ids t) i = Ret (cv_val (pf_ids t) i).
  Proof. intros Hi. apply cv_get_ok; [apply Hsh|]. rewrite (fs_isize _ _ _ _ Hsh). exact Hi. Qed.
  Lemma pf_init k : pf_init_id t k = slot (2 ^ b) (vhome b k) 0.
  Proof.
    unfold pf_init_id. rewrite (fs_capa _ _ _ _ Hsh). cbn [p2_mask].
    rewrite land_ones_mod, slot_0 by apply vhome_lt. reflexivity.
  Qed.
  Lemma pf_right h d : right_of (pf_capa t) (slot (2 ^ b) h d) = slot (2 ^ b) h (d + 1).
  Proof. rewrite (fs_capa _ _ _ _ Hsh). apply right_of_slot. pose proof (fs_b _ _ _ _ Hsh). lia. Qed.
  Lemma pf_capa_size : p2_size (pf_capa t) = 2 ^ b.
  Proof. rewrite (fs_capa _ _ _ _ Hsh). apply p2_size_ones. pose proof (fs_b _ _ _ _ Hsh). lia. Qed.
  Lemma pf_symb_size : p2_size (pf_symb t) = 2 ^ sb.
  Proof. rewrite (fs_symb _ _ _ _ Hsh). apply p2_size_ones. pose proof (fs_sb _ _ _ _ Hsh). lia. Qed.
  Lemma pf_mkey v s : v < 2 ^ b -> s < 2 ^ sb -> make_key (pf_symb t) v s = ekey sb v s.
  Proof. intros Hv Hs. rewrite (fs_symb _ _ _ _ Hsh). apply (make_key_ok b); auto. apply Hsh. Qed.
  Lemma pf_vacancy : countb (fun i => is_full (pf_cell t i)) (2 ^ b) < 2 ^ b ->
    exists v, v < 2 ^ b /\ pf_cell t v = Vac.
  Proof.
    intros Hc. destruct (countb_lt_ex _ _ Hc) as (i & Hi & Hv).
    exists i. split; [exact Hi|]. unfold pf_cell in *. destruct (_ =? 0); [reflexivity|discriminate].
  Qed.

  (** Writing a key and an id into a vacant slot. *)
  Lemma pf_store i key x : i < 2 ^ b -> key < 2 ^ (b + sb) -> 0 < x < 2 ^ b ->
    exists tab ids, cv_set (pf_table t) i key = Ret tab /\ cv_set (pf_ids t) i x = Ret ids /\
      forall sz, pf_shape mf b sb (mkPF tab ids sz (pf_max t) (pf_capa t) (pf_symb t)) /\
      (forall j, j < 2 ^ b -> pf_cell (mkPF tab ids sz (pf_max t) (pf_capa t) (pf_symb t)) j =
          cell_upd (pf_cell t) i (Full key) j) /\
      (forall j, j < 2 ^ b -> pf_id (mkPF tab ids sz (pf_max t) (pf_capa t) (pf_symb t)) j =
          if j =? i then x else pf_id t j).
  Proof.
    intros Hi Hk Hx.
    destruct (cv_set_ok (pf_table t) i key (fs_wf _ _ _ _ Hsh)) as (tab & E & Hwf & Hcs & Hcw & Hval);
      [rewrite (fs_size _ _ _ _ Hsh); exact Hi|rewrite (fs_width _ _ _ _ Hsh); exact Hk|].
    destruct (cv_set_ok (pf_ids t) i x (fs_iwf _ _ _ _ Hsh)) as (ids & E2 & Hwf2 & Hcs2 & Hcw2 & Hval2);
      [rewrite (fs_isize _ _ _ _ Hsh); exact Hi|rewrite (fs_iwidth _ _ _ _ Hsh); lia|].
    exists tab, ids. split; [exact E|]. split; [exact E2|].
    rewrite (fs_size _ _ _ _ Hsh) in Hval. rewrite (fs_isize _ _ _ _ Hsh) in Hval2.
    intros sz. split; [|split].
    - destruct Hsh. split; simpl; auto; congruence.
    - intros j Hj. unfold pf_cell, cell_upd. cbn [pf_ids pf_table].
      rewrite Hval, Hval2 by exact Hj. destruct (N.eqb_spec j i) as [->|]; [|reflexivity].
      rewrite (proj2 (N.eqb_neq x 0)) by lia. reflexivity.
    - intros j Hj. unfold pf_id. cbn [pf_ids]. apply Hval2, Hj.
  Qed.

  (** The body of the search loops. *)
  Lemma pf_case (R : Type) (onvac onhit : N -> N -> outcome (N + R)) key i : i < 2 ^ b ->
    (let* child_id := cv_get (pf_ids t) i in
     if child_id =? 0 then onvac child_id i
     else let* x := cv_get (pf_table t) i in
          if x =? key then onhit child_id i else Ret (inl (right_of (pf_capa t) i))) =
    match pf_cell t i with
    | Vac => onvac 0 i
    | Full k => if k =? key then onhit (pf_id t i) i else Ret (inl (right_of (pf_capa t) i))
    | Skip => UB
    end.
  Proof.
    intros Hi. rewrite pf_geti, pf_get by exact Hi. rewrite !bind_ret. unfold pf_cell, pf_id.
    destruct (N.eqb_spec (cv_val (pf_ids t) i) 0) as [->|Hne]; reflexivity.
  Qed.
End pf.

Lemma pf_expand_ok dbg mf b sb t loc : pf_rep dbg mf b sb t loc -> b <= 55 -> b + 1 + sb < 64 ->
  exists t', pf_expand dbg mf t = Ret t' /\ pf_rep dbg mf (b + 1) sb t' loc /\ pf_size t' < pf_max t'.
Proof.
  intros H Hb Hsb1. pose proof (fr_shape _ _ _ _ _ _ H) as Hsh.
  pose proof (fs_b _ _ _ _ Hsh) as Hb16. pose proof (fs_mf _ _ _ _ Hsh) as Hmf.
  pose proof (fr_trep _ _ _ _ _ _ H) as Htr.
  unfold pf_expand. rewrite (fs_capa _ _ _ _ Hsh), (fs_symb _ _ _ _ Hsh). cbn [p2_bits].
  destruct (pf_new_ok mf (b + 1) sb Hmf) as (t0 & E0 & Hf0); [lia|lia|].
  replace (N.max 16 (b + 1)) with (b + 1) in Hf0 by lia. rewrite E0, bind_ret.
  rewrite p2_size_ones by lia.
  destruct Hf0 as (Hsh0 & Hz0 & Hv0).
  assert (HM := pow2_pos b). assert (HM1 := pow2_pos (b + 1)). assert (HMM := pow2_succ b).
  assert (HmaxM := pf_max_facts _ _ _ _ Hsh).
  assert (Hcid : forall j k, j < 2 ^ b -> pf_cell t j = Full k -> 0 < pf_id t j < 2 ^ b).
  { intros j k Hj Hc. split.
    - unfold pf_cell in Hc. unfold pf_id. destruct (N.eqb_spec (cv_val (pf_ids t) j) 0); [discriminate|lia].
    - destruct (tr_path _ _ _ _ _ _ _ Htr j k Hj Hc) as (p & _ & Hp).
      pose proof (fr_ids _ _ _ _ _ _ H _ _ Hp). pose proof (fr_le _ _ _ _ _ _ H). lia. }
  assert (Hkl : forall j k, j < 2 ^ b -> pf_cell t j = Full k -> k < 2 ^ (b + sb)).
  { intros j k Hj Hc. unfold pf_cell in Hc. destruct (_ =? 0); [discriminate|]. injection Hc as <-.
    rewrite <- (fs_width _ _ _ _ Hsh). apply cv_val_lt; [apply Hsh|]. rewrite (fs_size _ _ _ _ Hsh). exact Hj. }
  match goal with |- context [for_range ?a ?n ?body ?s] =>
  assert (Hloop : wp (for_range a n body s) (fun nt =>
     pf_shape mf (b + 1) sb nt /\ pf_size nt = 0 /\ pinv (2 ^ (b + 1)) (vhome (b + 1)) (pf_cell nt) /\
     countb (fun i => is_full (pf_cell nt i)) (2 ^ (b + 1)) = countb (fun i => is_full (pf_cell t i)) (2 ^ b) /\
     (forall k x, (exists j, j < 2 ^ (b + 1) /\ pf_cell nt j = Full k /\ pf_id nt j = x) <->
                  (exists j, j < 2 ^ b /\ pf_cell t j = Full k /\ pf_id t j = x)))) end.
  { apply wp_for_range with (I := fun i nt =>
     pf_shape mf (b + 1) sb nt /\ pf_size nt = 0 /\ pinv (2 ^ (b + 1)) (vhome (b + 1)) (pf_cell nt) /\
     countb (fun i => is_full (pf_cell nt i)) (2 ^ (b + 1)) = countb (fun i => is_full (pf_cell t i)) i /\
     (forall k x, (exists j, j < 2 ^ (b + 1) /\ pf_cell nt j = Full k /\ pf_id nt j = x) <->
                  (exists j, j < i /\ pf_cell t j = Full k /\ pf_id t j = x))).
    - lia.
    - pose proof (p57 b ltac:(lia)). lia.
    - split; [exact Hsh0|]. split; [exact Hz0|]. split; [|split].
      + apply pinv_empty. intros i k Hi. rewrite Hv0 by exact Hi. discriminate.
      + rewrite countb_0. apply countb_const_false. intros i Hi. rewrite Hv0 by exact Hi. reflexivity.
      + intros k x. split; intros (j & Hj & Hc & _); [|lia]. rewrite Hv0 in Hc by exact Hj. discriminate.
    - intros i nt Hi (Hshn & Hzn & Hpn & Hcn & Hkn).
      rewrite (pf_geti mf b sb t Hsh) by lia. rewrite bind_ret.
      assert (Hcell : pf_cell t i = if cv_val (pf_ids t) i =? 0 then Vac else Full (cv_val (pf_table t) i)) by reflexivity.
      destruct (N.eqb_spec (cv_val (pf_ids t) i) 0) as [Ez|Enz].
      + apply wp_ret. split; [exact Hshn|]. split; [exact Hzn|]. split; [exact Hpn|]. split.
        * rewrite countb_succ, Hcell. simpl. rewrite N.add_0_r. exact Hcn.
        * intros k x. rewrite Hkn. split; intros (j & Hj & Hc & Hx); exists j; (split; [|split; assumption]); [lia|].
          destruct (N.eq_dec j i) as [->|]; [congruence|lia].
      + rewrite (pf_get mf b sb t Hsh) by lia. rewrite bind_ret.
        set (key := cv_val (pf_table t) i) in *.
        destruct (Hcid i key ltac:(lia) Hcell) as [Hx0 HxM].
        assert (Hassert : assert_dbg dbg (negb (key =? 0)) = Ret tt).
        { destruct dbg; [|reflexivity]. apply assert_true, negb_true_iff, N.eqb_neq. intros Ek.
          destruct (tr_path _ _ _ _ _ _ _ Htr i key ltac:(lia) Hcell) as (p & H1 & H2).
          rewrite Ek in H1, H2. rewrite N.div_0_l, N.mod_0_l in * by (apply N.pow_nonzero; discriminate).
          rewrite (trep_loc_inj _ _ _ _ _ _ _ Htr p [] 0 H1 (tr_root _ _ _ _ _ _ _ Htr)) in H2.
          rewrite (fr_dbg _ _ _ _ _ _ H eq_refl) in H2. discriminate. }
        rewrite Hassert, bind_ret. rewrite (pf_init mf (b + 1) sb nt Hshn).
        match goal with |- context [loop ?g _] => set (f := g) end.
        destruct (probe_vac_loop (2 ^ (b + 1)) (vhome (b + 1)) HM1 (vhome_lt (b + 1)) f
           (fun d => slot (2 ^ (b + 1)) (vhome (b + 1) key) d) (pf_cell nt) key) as (d & Hd & Hpr & Hvc & Hl).
        { apply (pf_M64 mf _ sb nt Hshn). }
        { apply pf_vacancy. rewrite Hcn. pose proof (countb_le (fun i => is_full (pf_cell t i)) i). lia. }
        { intros d Hd Hne. unfold f. rewrite (pf_geti mf (b + 1) sb nt Hshn) by (apply slot_lt; exact HM1).
          rewrite bind_ret. unfold pf_cell in Hne.
          destruct (N.eqb_spec (cv_val (pf_ids nt) (slot (2 ^ (b + 1)) (vhome (b + 1) key) d)) 0); [congruence|].
          rewrite (pf_right mf (b + 1) sb nt Hshn). reflexivity. }
        assert (Hlt := slot_lt (2 ^ (b + 1)) HM1 (vhome (b + 1) key) d).
        set (ni := slot (2 ^ (b + 1)) (vhome (b + 1) key) d) in *.
        destruct (pf_store mf (b + 1) sb nt Hshn ni key (cv_val (pf_ids t) i)) as (tab & ids & Et & Ei & Hst).
        { exact Hlt. }
        { apply (N.lt_le_trans _ (2 ^ (b + sb))); [apply (Hkl i); [lia|exact Hcell]|]. apply pow2_le. lia. }
        { unfold pf_id in *. lia. }
        assert (Hf : f ni = Ret (inr (mkPF tab ids (pf_size nt) (pf_max nt) (pf_capa nt) (pf_symb nt)))).
        { unfold f. rewrite (pf_geti mf (b + 1) sb nt Hshn) by exact Hlt. rewrite bind_ret.
          unfold pf_cell in Hvc. destruct (N.eqb_spec (cv_val (pf_ids nt) ni) 0); [|discriminate].
          rewrite Et, bind_ret, Ei. reflexivity. }
        rewrite Hl by (rewrite Hf; intros x; discriminate). rewrite Hf. cbn [finish]. apply wp_ret.
        destruct (Hst (pf_size nt)) as (Hsh' & Hc' & Hid').
        set (nt' := mkPF tab ids (pf_size nt) (pf_max nt) (pf_capa nt) (pf_symb nt)) in *.
        assert (Hnew : forall j, j < 2 ^ (b + 1) -> pf_cell nt j <> Full key).
        { intros j Hj Hc.
          destruct (proj1 (Hkn key (pf_id nt j))) as (j' & Hj' & Hcj & _); [eauto|].
          assert (j' = i); [|lia].
          apply (pi_uniq _ _ _ (tr_pinv _ _ _ _ _ _ _ Htr) j' i key); [lia|lia|exact Hcj|exact Hcell]. }
        split; [exact Hsh'|]. split; [exact Hzn|]. split; [|split].
        * apply (pinv_ext _ (vhome (b + 1)) HM1 (cell_upd (pf_cell nt) ni (Full key))).
          { intros j Hj. symmetry. apply Hc', Hj. }
          apply pinv_insert; auto. apply vhome_lt.
        * rewrite countb_succ, Hcell. simpl b2n. rewrite <- Hcn.
          apply (countb_upd _ _ _ ni Hlt).
          -- rewrite Hvc. reflexivity.
          -- rewrite Hc' by exact Hlt. unfold cell_upd. rewrite N.eqb_refl. reflexivity.
          -- intros j Hj Hne. rewrite Hc' by exact Hj. unfold cell_upd. rewrite (proj2 (N.eqb_neq _ _) Hne). reflexivity.
        * intros k x. split.
          -- intros (j & Hj & Hc & Hx). rewrite Hc' in Hc by exact Hj. rewrite Hid' in Hx by exact Hj.
             unfold cell_upd in Hc. destruct (N.eqb_spec j ni) as [->|Hne].
             ++ injection Hc as <-. exists i. split; [lia|]. split; [exact Hcell|exact Hx].
             ++ destruct (proj1 (Hkn k x)) as (j' & Hj' & Hr); [eauto|]. exists j'. split; [lia|exact Hr].
          -- intros (j & Hj & Hc & Hx). destruct (N.eq_dec j i) as [->|Hne].
             ++ rewrite Hcell in Hc. injection Hc as <-. exists ni. split; [exact Hlt|].
                rewrite Hc', Hid' by exact Hlt. unfold cell_upd. rewrite N.eqb_refl. split; [reflexivity|exact Hx].
             ++ destruct (proj2 (Hkn k x)) as (j' & Hj' & Hcj & Hxj).
                { exists j. split; [lia|]. split; assumption. }
                exists j'. split; [exact Hj'|]. rewrite Hc', Hid' by exact Hj'. unfold cell_upd.
                destruct (N.eqb_spec j' ni) as [->|]; [congruence|]. split; assumption.
    - auto. }
  apply wp_inv in Hloop as (nt & El & Hshn & Hzn & Hpn & Hcn & Hkn). rewrite El, bind_ret.
  eexists. split; [reflexivity|].
  assert (Hmax : max_size_of (2 ^ b) mf < max_size_of (2 ^ (b + 1)) mf) by (apply ms_ok2_facts; lia).
  pose proof (fr_le _ _ _ _ _ _ H) as Hle. rewrite (fs_max _ _ _ _ Hsh) in Hle.
  assert (Hmn := fs_max _ _ _ _ Hshn).
  split; [|cbn [pf_size pf_max]; rewrite Hmn; lia].
  split.
  - destruct Hshn. split; auto.
  - split.
    + exact Hpn.
    + apply (tr_root _ _ _ _ _ _ _ Htr).
    + intros s p x Hx. destruct (tr_cell _ _ _ _ _ _ _ Htr s p x Hx) as (Hs & v & i & Hv & Hi & Hc & Hid).
      split; [exact Hs|]. destruct (proj2 (Hkn (ekey sb v s) x)) as (j & Hj & Hcj & Hxj); [eauto|].
      exists v, j. repeat split; assumption.
    + intros i k Hi Hc. destruct (proj1 (Hkn k (pf_id nt i))) as (j & Hj & Hcj & Hxj); [eauto|].
      destruct (tr_path _ _ _ _ _ _ _ Htr j k Hj Hcj) as (p & H1 & H2). exists p. split; [exact H1|].
      change (loc !! (k mod 2 ^ sb :: p) = Some (pf_id nt i)). rewrite <- Hxj. exact H2.
    + intros i j k k' Hi Hj Hc Hc' E.
      change (pf_cell nt i = Full k) in Hc. change (pf_cell nt j = Full k') in Hc'.
      change (pf_id nt i = pf_id nt j) in E.
      destruct (proj1 (Hkn k (pf_id nt i))) as (i1 & Hi1 & Hc1 & Hx1); [eauto|].
      destruct (proj1 (Hkn k' (pf_id nt j))) as (j1 & Hj1 & Hc2 & Hx2); [eauto|].
      assert (i1 = j1) by (eapply (tr_inj _ _ _ _ _ _ _ Htr); eauto; congruence). subst j1.
      assert (k' = k) by congruence. subst k'.
      apply (pi_uniq _ _ _ Hpn i j k); assumption.
    + intros i k Hi Hc. change (pf_id nt i <> 0).
      destruct (proj1 (Hkn k (pf_id nt i))) as (i1 & Hi1 & Hc1 & Hx1); [eauto|].
      rewrite <- Hx1. apply (tr_nroot _ _ _ _ _ _ _ Htr i1 k Hi1 Hc1).
  - cbn [pf_size]. change (countb (fun i => is_full (pf_cell nt i)) (2 ^ (b + 1)) + 1 = pf_size t).
    rewrite Hcn. apply H.
  - cbn [pf_size]. apply H.
  - cbn [pf_size pf_max]. rewrite Hmn. lia.
  - cbn [pf_size]. apply H.
  - apply H.
Qed.

Section pfops.
  Context (dbg : bool) (mf b sb : N) (t : pf_trie) (loc : gmap (list N) N).
  Hypothesis H : pf_rep dbg mf b sb t loc.
  Let Hsh := fr_shape _ _ _ _ _ _ H.
  Let Htr := fr_trep _ _ _ _ _ _ H.

  Lemma pf_root : pf_get_root t = Ret 0.
  Proof.
    unfold pf_get_root. rewrite assert_true; [reflexivity|]. apply negb_true_iff, N.eqb_neq.
    pose proof (fr_cnt _ _ _ _ _ _ H). lia.
  Qed.
  Lemma pf_id_lt p v : loc !! p = Some v -> v < 2 ^ b.
  Proof.
    intros Hp. pose proof (fr_ids _ _ _ _ _ _ H p v Hp). pose proof (fr_le _ _ _ _ _ _ H).
    pose proof (pf_max_facts _ _ _ _ Hsh). lia.
  Qed.
  Lemma pf_vac : exists v, v < 2 ^ b /\ pf_cell t v = Vac.
  Proof.
    apply pf_vacancy. pose proof (fr_cnt _ _ _ _ _ _ H). pose proof (fr_le _ _ _ _ _ _ H).
    pose proof (pf_max_facts _ _ _ _ Hsh). lia.
  Qed.

  Lemma pf_find_raw v s : v < 2 ^ b -> s < 2 ^ sb ->
    (exists i, i < 2 ^ b /\ pf_cell t i = Full (ekey sb v s) /\ pf_find_child t v s = Ret (pf_id t i)) \/
    ((forall j, j < 2 ^ b -> pf_cell t j <> Full (ekey sb v s)) /\ pf_find_child t v s = Ret nil_id).
  Proof.
    intros Hv Hs. unfold pf_find_child. rewrite (pf_capa_size mf b sb t Hsh), (pf_symb_size mf b sb t Hsh).
    rewrite !assert_true by (apply N.ltb_lt; assumption). rewrite !bind_ret.
    rewrite (proj2 (N.eqb_neq (pf_size t) 0)) by (pose proof (fr_cnt _ _ _ _ _ _ H); lia).
    rewrite (pf_mkey mf b sb t Hsh) by assumption. rewrite (pf_init mf b sb t Hsh).
    match goal with |- context [loop ?g _] => set (f := g) end.
    set (k := ekey sb v s) in *.
    assert (Hf : forall i, i < 2 ^ b -> f i = match pf_cell t i with
      | Vac => Ret (inr nil_id)
      | Full k' => if k' =? k then Ret (inr (pf_id t i)) else Ret (inl (right_of (pf_capa t) i))
      | Skip => UB end).
    { intros i Hi. exact (pf_case mf b sb t Hsh N (fun _ _ => Ret (inr nil_id)) (fun x _ => Ret (inr x)) k i Hi). }
    destruct (probe_loop (2 ^ b) (vhome b) (pow2_pos b) (vhome_lt b) f
      (fun d => slot (2 ^ b) (vhome b k) d) (pf_cell t) k (pf_M64 mf b sb t Hsh)
      (tr_pinv _ _ _ _ _ _ _ Htr) pf_vac) as (d & Hd & Hpr & Hc & Hl).
    { intros d Hd H1 H2. rewrite Hf by (apply slot_lt, pow2_pos).
      unfold pf_cell in *. destruct (N.eqb_spec (cv_val (pf_ids t) (slot (2 ^ b) (vhome b k) d)) 0); [congruence|].
      rewrite (proj2 (N.eqb_neq _ k)) by congruence.
      rewrite (pf_right mf b sb t Hsh). reflexivity. }
    assert (Hlt := slot_lt (2 ^ b) (pow2_pos b) (vhome b k) d).
    set (i := slot (2 ^ b) (vhome b k) d) in *.
    destruct Hc as [Hc|[Hc Hab]].
    - left. exists i. split; [exact Hlt|]. split; [exact Hc|].
      assert (E : f i = Ret (inr (pf_id t i))) by (rewrite Hf, Hc, N.eqb_refl by exact Hlt; reflexivity).
      rewrite Hl by (rewrite E; intros x; discriminate). rewrite E. reflexivity.
    - right. split; [exact Hab|].
      assert (E : f i = Ret (inr nil_id)) by (rewrite Hf, Hc by exact Hlt; reflexivity).
      rewrite Hl by (rewrite E; intros x; discriminate). rewrite E. reflexivity.
  Qed.
  Lemma pf_find_ok p v s : loc !! p = Some v -> s < 2 ^ sb ->
    pf_find_child t v s = Ret (default nil_id (loc !! (s :: p))).
  Proof.
    intros Hp Hs. destruct (pf_find_raw v s (pf_id_lt p v Hp) Hs) as [(i & Hi & Hc & ->)|[Hab ->]].
    - rewrite (trep_found _ _ _ _ _ _ _ Htr p v s i Hp Hs Hi Hc). reflexivity.
    - rewrite (trep_absent _ _ _ _ _ _ _ Htr p v s Hp Hs Hab). reflexivity.
  Qed.

  (** [add_child] when no growth is needed. *)
  Lemma pf_add_room p v s : loc !! p = Some v -> s < 2 ^ sb -> pf_size t < pf_max t ->
    (dbg = true -> s :: p <> [0]) ->
    match loc !! (s :: p) with
    | Some x => pf_add_child dbg mf t v s = Ret (false, x, t)
    | None => exists t', pf_add_child dbg mf t v s = Ret (true, pf_size t, t') /\
               pf_rep dbg mf b sb t' (<[s :: p := pf_size t]> loc)
    end.
  Proof.
    intros Hp Hs Hroom Hbad. pose proof (pf_id_lt p v Hp) as Hv.
    unfold pf_add_child. rewrite (pf_capa_size mf b sb t Hsh), (pf_symb_size mf b sb t Hsh).
    rewrite !assert_true by (apply N.ltb_lt; assumption). rewrite !bind_ret.
    rewrite (proj2 (N.leb_gt _ _) Hroom). rewrite bind_ret.
    rewrite (pf_mkey mf b sb t Hsh) by assumption. rewrite (pf_init mf b sb t Hsh).
    set (k := ekey sb v s) in *.
    assert (Hk0 : assert_dbg dbg (negb (k =? 0)) = Ret tt).
    { destruct dbg eqn:Edbg; [|reflexivity]. apply assert_true, negb_true_iff, N.eqb_neq. intros E.
      apply Hbad; [reflexivity|]. unfold k, ekey in E. pose proof (pow2_pos sb).
      assert (v = 0) by nia. assert (s = 0) by nia. subst.
      rewrite (trep_loc_inj _ _ _ _ _ _ _ Htr p [] 0 Hp (tr_root _ _ _ _ _ _ _ Htr)). reflexivity. }
    rewrite Hk0, bind_ret.
    match goal with |- context [loop ?g _] => set (f := g) end.
    set (onvac := fun i => let* _ := assert_ (negb (pf_size t =? 0)) in
      let* table := cv_set (pf_table t) i k in
      let* ids := cv_set (pf_ids t) i (pf_size t) in
      Ret (inr (true, pf_size t, mkPF table ids (add64 (pf_size t) 1) (pf_max t) (pf_capa t) (pf_symb t)))
      : outcome (N + bool * N * pf_trie)).
    assert (Hf : forall i, i < 2 ^ b -> f i = match pf_cell t i with
      | Vac => onvac i
      | Full k' => if k' =? k then Ret (inr (false, pf_id t i, t)) else Ret (inl (right_of (pf_capa t) i))
      | Skip => UB end).
    { intros i Hi. exact (pf_case mf b sb t Hsh _ (fun _ i => onvac i) (fun x _ => Ret (inr (false, x, t))) k i Hi). }
    destruct (probe_loop (2 ^ b) (vhome b) (pow2_pos b) (vhome_lt b) f
      (fun d => slot (2 ^ b) (vhome b k) d) (pf_cell t) k (pf_M64 mf b sb t Hsh)
      (tr_pinv _ _ _ _ _ _ _ Htr) pf_vac) as (d & Hd & Hpr & Hc & Hl).
    { intros d Hd H1 H2. rewrite Hf by (apply slot_lt, pow2_pos).
      unfold pf_cell in *. destruct (N.eqb_spec (cv_val (pf_ids t) (slot (2 ^ b) (vhome b k) d)) 0); [congruence|].
      rewrite (proj2 (N.eqb_neq _ k)) by congruence.
      rewrite (pf_right mf b sb t Hsh). reflexivity. }
    assert (Hlt := slot_lt (2 ^ b) (pow2_pos b) (vhome b k) d).
    set (i := slot (2 ^ b) (vhome b k) d) in *.
    assert (Hszp : 0 < pf_size t) by (pose proof (fr_cnt _ _ _ _ _ _ H); lia).
    assert (HmaxM := pf_max_facts _ _ _ _ Hsh).
    destruct Hc as [Hc|[Hc Hab]].
    - rewrite (trep_found _ _ _ _ _ _ _ Htr p v s i Hp Hs Hlt Hc).
      assert (E : f i = Ret (inr (false, pf_id t i, t))) by (rewrite Hf, Hc, N.eqb_refl by exact Hlt; reflexivity).
      rewrite Hl by (rewrite E; intros x; discriminate). rewrite E. reflexivity.
    - assert (Hnone := trep_absent _ _ _ _ _ _ _ Htr p v s Hp Hs Hab). rewrite Hnone.
      destruct (pf_store mf b sb t Hsh i k (pf_size t)) as (tab & ids & Et & Ei & Hst).
      { exact Hlt. } { apply ekey_lt; assumption. } { lia. }
      assert (E : f i = Ret (inr (true, pf_size t, mkPF tab ids (add64 (pf_size t) 1) (pf_max t) (pf_capa t) (pf_symb t)))).
      { rewrite Hf, Hc by exact Hlt. unfold onvac. rewrite assert_true by (apply negb_true_iff, N.eqb_neq; lia).
        rewrite bind_ret, Et, bind_ret, Ei, bind_ret. reflexivity. }
      rewrite Hl by (rewrite E; intros x; discriminate). rewrite E. cbn [finish].
      eexists. split; [reflexivity|].
      assert (Hsz : add64 (pf_size t) 1 = pf_size t + 1).
      { unfold add64. apply w64_small. pose proof (fs_b _ _ _ _ Hsh). pose proof (p57 b ltac:(lia)). lia. }
      rewrite Hsz. destruct (Hst (pf_size t + 1)) as (Hsh' & Hc' & Hid').
      set (t' := mkPF tab ids (pf_size t + 1) (pf_max t) (pf_capa t) (pf_symb t)) in *.
      split.
      + exact Hsh'.
      + apply (trep_insert (2 ^ b) sb 0 (vhome b) (pf_cell t) (pf_id t) loc (pow2_pos b) (vhome_lt b)
           Htr p v s d (pf_size t)); auto.
        * intros d' Hd'. apply (Hpr d' Hd').
        * intros q Hq. pose proof (fr_ids _ _ _ _ _ _ H q _ Hq). lia.
        * fold k i. rewrite Hid', N.eqb_refl by exact Hlt. reflexivity.
        * intros j k' Hj Hcj. rewrite Hid' by exact Hj. destruct (N.eqb_spec j i) as [->|]; [congruence|reflexivity].
      + cbn [pf_size t']. rewrite (countb_upd (fun j => is_full (pf_cell t j)) _ _ i Hlt).
        * rewrite (fr_cnt _ _ _ _ _ _ H). reflexivity.
        * rewrite Hc. reflexivity.
        * rewrite Hc' by exact Hlt. unfold cell_upd. rewrite N.eqb_refl. reflexivity.
        * intros j Hj Hne'. rewrite Hc' by exact Hj. unfold cell_upd. rewrite (proj2 (N.eqb_neq _ _) Hne'). reflexivity.
      + cbn [pf_size t']. rewrite map_size_insert, Hnone, (fr_size _ _ _ _ _ _ H). simpl. lia.
      + cbn [pf_size pf_max t']. lia.
      + cbn [pf_size t']. intros q x Hq. apply lookup_insert_Some in Hq as [[_ <-]|[_ Hq]]; [lia|].
        pose proof (fr_ids _ _ _ _ _ _ H q _ Hq). lia.
      + intros Hdbg. rewrite lookup_insert_ne by (apply Hbad, Hdbg). apply (fr_dbg _ _ _ _ _ _ H Hdbg).
  Qed.
End pfops.

(** [add_child]: it may enlarge the table first; node ids never change and a new node gets the
    current number of nodes as its id. *)
Lemma pf_add_ok dbg mf b sb t loc p v s : pf_rep dbg mf b sb t loc ->
  loc !! p = Some v -> s < 2 ^ sb -> (dbg = true -> s :: p <> [0]) ->
  (pf_size t < pf_max t \/ (b <= 55 /\ b + 1 + sb < 64)) ->
  exists r x t' b', pf_add_child dbg mf t v s = Ret (r, x, t') /\ b <= b' <= b + 1 /\ ((pf_size t < pf_max t -> b' = b) /\ (pf_max t <= pf_size t -> b' = b + 1)) /\ match loc !! (s :: p) with
    | Some y => r = false /\ x = y /\ pf_rep dbg mf b' sb t' loc
    | None => r = true /\ x = pf_size t /\ pf_rep dbg mf b' sb t' (<[s :: p := x]> loc)
    end.
Proof.
  intros H Hp Hs Hbad Hroom.
  destruct (N.lt_ge_cases (pf_size t) (pf_max t)) as [Hlt|Hge].
  - pose proof (pf_add_room dbg mf b sb t loc H p v s Hp Hs Hlt Hbad) as Ha.
    destruct (loc !! (s :: p)) as [y|].
    + exists false, y, t, b. split; [assumption|]. split; [lia|]. split; [split; lia|]. auto.
    + destruct Ha as (t' & E & Hr). exists true, (pf_size t), t', b. split; [assumption|]. split; [lia|]. split; [split; lia|]. auto.
  - destruct Hroom as [Hr|[Hb Hsb]]; [lia|].
    destruct (pf_expand_ok dbg mf b sb t loc H Hb Hsb) as (t1 & E1 & H1 & Hlt1).
    pose proof (pf_add_room dbg mf (b + 1) sb t1 loc H1 p v s Hp Hs Hlt1 Hbad) as Ha.
    assert (Hsz : pf_size t1 = pf_size t).
    { rewrite (fr_size _ _ _ _ _ _ H1), (fr_size _ _ _ _ _ _ H). reflexivity. }
    pose proof (fr_shape _ _ _ _ _ _ H) as Hsh. pose proof (fr_shape _ _ _ _ _ _ H1) as Hsh1.
    assert (Hv := pf_id_lt dbg mf b sb t loc H p v Hp).
    assert (Hv1 := pf_id_lt dbg mf (b + 1) sb t1 loc H1 p v Hp).
    assert (Heq : pf_add_child dbg mf t v s = pf_add_child dbg mf t1 v s).
    { unfold pf_add_child. rewrite (pf_capa_size mf b sb t Hsh), (pf_symb_size mf b sb t Hsh).
      rewrite (pf_capa_size mf _ sb t1 Hsh1), (pf_symb_size mf _ sb t1 Hsh1).
      rewrite !assert_true by (apply N.ltb_lt; assumption). rewrite !bind_ret.
      rewrite (proj2 (N.leb_le _ _) Hge), E1, (proj2 (N.leb_gt _ _) Hlt1), !bind_ret. reflexivity. }
    rewrite Heq. destruct (loc !! (s :: p)) as [y|].
    + exists false, y, t1, (b + 1). split; [assumption|]. split; [lia|]. split; [split; lia|]. auto.
    + destruct Ha as (t' & E & Hr). exists true, (pf_size t1), t', (b + 1).
      rewrite Hsz in *. split; [assumption|]. split; [lia|]. split; [split; lia|]. auto.
Qed.
End hash.
