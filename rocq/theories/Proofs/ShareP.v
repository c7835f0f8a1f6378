(** The labels of a path-decomposed trie: every edge of the trie once. *)
From Verif.Proofs Require Export AllocP.
From Verif.Props Require Export ShareSpec.
Local Open Scope N_scope.

Lemma elem_prefixes_of s k : s ∈ prefixes_of k <-> s <> [] /\ exists r, k = s ++ r.
Proof.
  unfold prefixes_of. rewrite elem_of_list_In, in_map_iff. split.
  - intros (n & <- & Hn). apply in_seq in Hn. split.
    + destruct k; [simpl in Hn; lia|]. destruct n; [lia|]. discriminate.
    + exists (skipn n k). symmetry. apply firstn_skipn.
  - intros [Hs [r ->]]. exists (length s). rewrite take_app. split; [reflexivity|]. apply in_seq. rewrite app_length.
    destruct s; [congruence|]. simpl. lia.
Qed.
Lemma elem_prefixes s K : s ∈ prefixes K <-> s <> [] /\ exists k r, k ∈ K /\ k = s ++ r.
Proof.
  unfold prefixes. rewrite elem_of_list_to_set, elem_of_list_In, in_concat. split.
  - intros (x & Hx & Hs). apply in_map_iff in Hx as (k & <- & Hk). apply elem_of_list_In, elem_prefixes_of in Hs as [Hs [r E]].
    split; [exact Hs|]. exists k, r. split; [|exact E]. apply elem_of_elements, elem_of_list_In, Hk.
  - intros [Hs (k & r & Hk & E)]. exists (prefixes_of k). split.
    + apply in_map. apply elem_of_list_In, elem_of_elements, Hk.
    + apply elem_of_list_In, elem_prefixes_of. eauto.
Qed.

(** ** Growing a tree leaf by leaf *)
Lemma deepest (D : dmap) : D <> ∅ -> exists π e, D !! π = Some e /\ forall ρ, is_Some (D !! ρ) -> (length ρ <= length π)%nat.
Proof.
  intros Hne.
  assert (HT : Transitive (fun x y : node => (length y <= length x)%nat)) by (intros x y z; lia).
  assert (HX : forall x y : node, Decision ((fun x y : node => (length y <= length x)%nat) x y)) by (intros x y; simpl; apply _).
  destruct (minimal_exists (fun x y : node => (length y <= length x)%nat) (dom D)) as (π & Hp & Hmin).
  { intros E. apply Hne. apply dom_empty_iff_L. set_solver. }
  apply elem_of_dom in Hp as [e He]. exists π, e. split; [exact He|]. intros ρ Hr. apply elem_of_dom in Hr.
  destruct (Nat.le_ge_cases (length ρ) (length π)) as [H|H]; [exact H|]. apply (Hmin ρ Hr H).
Qed.
Lemma dvalid_ind (S : gset N) (P : dmap -> Prop) :
  (forall l v, P {[ [] := (l, v) ]}) ->
  (forall D π l v a d r c k z, dvalid S D -> P D -> D !! π = Some (l, v) -> l = a ++ d :: r -> c <> d ->
     D !! ((length a, c) :: π) = None -> P (<[(length a, c) :: π := (k, z)]> D)) ->
  forall D, dvalid S D -> D <> ∅ -> P D.
Proof.
  intros H1 H2 D. remember (size D) as n eqn:En. revert D En. induction n as [n IH] using lt_wf_ind. intros D En HD Hne.
  destruct (deepest D Hne) as (π & [k z] & Hp & Hmax). destruct π as [|[m c] π].
  - assert (D = {[ [] := (k, z) ]}) as ->; [|apply H1]. apply map_eq. intros ρ. destruct ρ as [|x ρ].
    + rewrite lookup_singleton. exact Hp.
    + rewrite lookup_singleton_ne by discriminate. destruct (D !! (x :: ρ)) eqn:E; [|reflexivity].
      specialize (Hmax (x :: ρ) ltac:(eauto)). simpl in Hmax. lia.
  - destruct (dv_node _ _ HD m c π k z Hp) as [(l & v & a & d & r & Hl & El & Hm & Hcd) Hc].
    set (D0 := delete ((m, c) :: π) D).
    assert (HD0 : dvalid S D0).
    { split.
      - intros l' v' E. unfold D0 in E. rewrite lookup_delete_ne in E by discriminate. apply (dv_root _ _ HD l' v' E).
      - intros m' c' ρ l' v' E. unfold D0 in E. apply lookup_delete_Some in E as [Hn' E].
        destruct (dv_node _ _ HD m' c' ρ l' v' E) as [(l1 & v1 & a1 & d1 & r1 & Hr & Hx) Hy]. split; [|exact Hy].
        exists l1, v1, a1, d1, r1. split; [|exact Hx]. unfold D0. rewrite lookup_delete_ne; [exact Hr|].
        intros <-. specialize (Hmax ((m', c') :: (m, c) :: π) ltac:(eauto)). simpl in Hmax. lia. }
    assert (Hpi : D0 !! π = Some (l, v)).
    { unfold D0. rewrite lookup_delete_ne; [exact Hl|]. intros E. apply (f_equal length) in E. simpl in E. lia. }
    assert (ED : D = <[(length a, c) :: π := (k, z)]> D0).
    { rewrite Hm. unfold D0. rewrite insert_delete_insert, insert_id by exact Hp. reflexivity. }
    rewrite ED. apply (H2 D0 π l v a d r c k z HD0); try assumption.
    + apply (IH (size D0)); [|reflexivity|exact HD0|].
      * rewrite En. rewrite ED. rewrite map_size_insert_None; [lia|]. rewrite Hm. apply lookup_delete.
      * intros E. rewrite E, lookup_empty in Hpi. discriminate.
    + rewrite Hm. apply lookup_delete.
Qed.

(** ** Counting *)
Definition dkeys (D : dmap) : gset (list N) := list_to_set ((fun x : node * (list N * list N) => keyof D (fst x)) <$> map_to_list D).
Lemma elem_dkeys D k : k ∈ dkeys D <-> exists π, is_Some (D !! π) /\ keyof D π = k.
Proof.
  unfold dkeys. rewrite elem_of_list_to_set, elem_of_list_fmap. split.
  - intros ([π e] & -> & H). apply elem_of_map_to_list in H. exists π. eauto.
  - intros (π & [e He] & <-). exists (π, e). split; [reflexivity|]. apply elem_of_map_to_list, He.
Qed.
Lemma dkeys_dom D M : dict_of D M -> dkeys D = dom M.
Proof.
  intros [H1 H2]. apply set_eq. intros k. rewrite elem_dkeys, elem_of_dom. split.
  - intros (π & [[l v] He] & <-). eauto.
  - intros [v Hv]. destruct (H2 k v Hv) as (π & l & Hp & Hk). eauto.
Qed.
Lemma absent_branch S D π l v a d r c k ρ e : dvalid S D -> D !! π = Some (l, v) -> l = a ++ d :: r -> c <> d ->
  D !! ((length a, c) :: π) = None -> D !! ρ = Some e -> keyof D ρ <> spell D π ++ a ++ c :: k.
Proof.
  intros HD Hp El Hcd Hnew Hr E. destruct e as [l' v']. pose proof (reach_keyof S D HD ρ l' v' Hr) as Hreach. rewrite E in Hreach.
  assert (Hrp : reach D π (a ++ c :: k) ρ).
  { clear -HD Hreach Hp. revert Hreach. generalize (a ++ c :: k) as y. revert l v Hp.
    induction π as [|[m c0] π IH]; intros l v Hp y H; [exact H|].
    destruct (dv_node _ _ HD m c0 π l v Hp) as [(l' & v' & a' & d & r & Hl' & El & Hm & Hcd) _].
    simpl in H. rewrite (label_some _ _ _ _ Hl'), El, <- Hm, take_app in H. rewrite <- !app_assoc in H.
    apply (IH l' v' Hl') in H. simpl in H. rewrite <- Hm. eapply reach_next; eassumption. }
  pose proof (reach_next D π l v a c d k r ρ Hp El Hcd Hrp) as Hn. apply reach_some in Hn as [e He]. congruence.
Qed.

Definition lens (D : dmap) : N := msum (fun _ x => N.of_nat (length (fst x))) D.
Definition tails (p k : list N) : gset (list N) := list_to_set (map (fun j => p ++ firstn j k) (seq 0 (Datatypes.S (length k)))).
Lemma tails_size p k : size (tails p k) = Datatypes.S (length k).
Proof.
  unfold tails. rewrite size_list_to_set; [rewrite map_length, seq_length; reflexivity|].
  apply (NoDup_fmap_2_strong (fun j => p ++ firstn j k)); [|apply NoDup_seq].
  intros x y Hx Hy E. apply elem_of_seq in Hx, Hy. apply app_inv_head in E. apply (f_equal length) in E.
  rewrite !firstn_length in E. lia.
Qed.
Lemma elem_tails s p k : s ∈ tails p k <-> exists x r, k = x ++ r /\ s = p ++ x.
Proof.
  unfold tails. rewrite elem_of_list_to_set, elem_of_list_In, in_map_iff. split.
  - intros (j & <- & _). exists (firstn j k), (skipn j k). rewrite firstn_skipn. auto.
  - intros (x & r & -> & ->). exists (length x). rewrite take_app. split; [reflexivity|]. apply in_seq. rewrite app_length. lia.
Qed.

Lemma label_count S D : dvalid S D -> D <> ∅ -> lens D + N.of_nat (size D) = 1 + N.of_nat (size (prefixes (dkeys D))).
Proof.
  revert D. apply dvalid_ind.
  - intros l v. unfold lens. rewrite <- insert_empty at 1. rewrite msum_insert, msum_empty by apply lookup_empty. rewrite map_size_singleton.
    cbn [fst]. assert (E : prefixes (dkeys {[ [] := (l, v) ]}) ∪ {[ [] ]} = tails [] l).
    { apply set_eq. intros s. rewrite elem_of_union, elem_prefixes, elem_tails, elem_of_singleton. split.
      - intros [(Hs & k & r & Hk & ->)| ->]; [|exists [], l; auto]. apply elem_dkeys in Hk as (π & [e He] & Ek).
        apply lookup_singleton_Some in He as [<- <-]. unfold keyof, label in Ek. rewrite lookup_singleton in Ek. simpl in Ek.
        exists s, r. auto.
      - intros (x & r & -> & ->). destruct x as [|y x]; [right; reflexivity|]. left. split; [discriminate|].
        exists ((y :: x) ++ r), r. split; [|reflexivity]. apply elem_dkeys. exists []. rewrite lookup_singleton. split; [eauto|].
        unfold keyof, label. rewrite lookup_singleton. reflexivity. }
    apply (f_equal size) in E. rewrite tails_size, size_union, size_singleton in E; [lia|].
    intros x Hx. rewrite elem_prefixes, elem_of_singleton in *. tauto.
  - intros D π l v a d r c k z HD IH Hp El Hcd Hnew. set (π' := (length a, c) :: π) in *. set (D' := <[π' := (k, z)]> D).
    set (p := spell D π ++ a ++ [c]).
    assert (Hk : forall ρ e, D !! ρ = Some e -> keyof D' ρ = keyof D ρ).
    { intros ρ e Hr. apply (keyof_ext S D HD _ ρ e Hr). intros ρ' l' v' Hr'. apply (label_new D π' _ ρ' l' v' Hnew Hr'). }
    assert (Hnk : keyof D' π' = p ++ k).
    { unfold D', π'. rewrite (keyof_new S D HD π l v a d r c k z Hp El Hnew). unfold p. rewrite <- !app_assoc. reflexivity. }
    assert (EK : prefixes (dkeys D') = tails p k ∪ prefixes (dkeys D)).
    { apply set_eq. intros s. rewrite elem_of_union, !elem_prefixes, elem_tails. split.
      - intros (Hs & y & t & Hy & Ey). apply elem_dkeys in Hy as (ρ & [e He] & Ek). unfold D' in He.
        apply lookup_insert_Some in He as [[<- <-]|[Hne He]].
        + fold D' in Ek. rewrite Hnk in Ek. subst y. destruct (le_lt_dec (length p) (length s)) as [Hle|Hlt].
          * left. destruct (app_eq_inv _ _ _ _ Ey) as [(x & E1 & E2)|(x & E1 & E2)].
            -- assert (x = []) as -> by (apply length_zero_iff_nil; apply (f_equal length) in E1; rewrite app_length in E1; lia).
               rewrite app_nil_r in E1. simpl in E2. subst. exists [], k. rewrite app_nil_r. auto.
            -- exists x, t. auto.
          * right. split; [exact Hs|]. exists (keyof D π).
            assert (exists t', spell D π ++ a = s ++ t') as [t' Et].
            { exists (skipn (length s) (spell D π ++ a)). rewrite <- (firstn_skipn (length s) (spell D π ++ a)) at 1. f_equal.
              apply (f_equal (firstn (length s))) in Ey. rewrite take_app in Ey. unfold p in Ey, Hlt. rewrite app_assoc in Ey, Hlt.
              rewrite <- app_assoc in Ey. rewrite app_length in Hlt. simpl in Hlt. rewrite take_app_le in Ey by lia. exact Ey. }
            exists (t' ++ d :: r). split; [apply elem_dkeys; eauto|]. unfold keyof. rewrite (label_some _ _ _ _ Hp), El.
            rewrite app_assoc, Et, <- app_assoc. reflexivity.
        + right. split; [exact Hs|]. exists y, t. split; [|exact Ey]. apply elem_dkeys. exists ρ. split; [eauto|].
          rewrite <- Ek. symmetry. apply (Hk ρ e He).
      - intros [(x & t & Ek & ->)|(Hs & y & t & Hy & Ey)].
        + split; [unfold p; rewrite <- !app_assoc; intros E; apply app_eq_nil in E as [_ E]; apply app_eq_nil in E as [_ E]; discriminate|].
          exists (p ++ k), t. split; [|rewrite Ek, app_assoc; reflexivity]. apply elem_dkeys. exists π'. split; [|exact Hnk].
          unfold D'. rewrite lookup_insert. eauto.
        + split; [exact Hs|]. exists y, t. split; [|exact Ey]. apply elem_dkeys in Hy as (ρ & [e He] & <-). apply elem_dkeys. exists ρ.
          split; [|apply (Hk ρ e He)]. unfold D'. rewrite lookup_insert_ne by congruence. eauto. }
    assert (Hdis : tails p k ## prefixes (dkeys D)).
    { intros s H1 H2. apply elem_tails in H1 as (x & t & _ & ->). apply elem_prefixes in H2 as (_ & y & t' & Hy & Ey).
      apply elem_dkeys in Hy as (ρ & [e He] & Ek). rewrite <- Ek in Ey. unfold p in Ey. rewrite <- !app_assoc in Ey. simpl in Ey.
      apply (absent_branch S D π l v a d r c (x ++ t') ρ e HD Hp El Hcd Hnew He Ey). }
    rewrite EK, size_union, tails_size by exact Hdis. unfold lens in *. unfold D' at 1. rewrite msum_insert by exact Hnew.
    unfold D'. rewrite map_size_insert_None by exact Hnew. cbn [fst]. lia.
Qed.

(** ** Maps *)
Lemma lab_msum TO NO e srep m S D M b loc lab (c : list N * list N -> N) : mrep TO NO e srep m S D M b loc lab ->
  msum (fun _ => c) lab = msum (fun _ => c) D.
Proof.
  intros R. pose proof (mr_D _ _ _ _ _ _ _ _ _ _ _ R) as HD. pose proof (mr_codes _ _ _ _ _ _ _ _ _ _ _ R) as HC. apply N.le_antisymm.
  - apply (msum_le _ _ (fun q π => q = MapP.enc e (m_codes _ _ m) π)).
    + intros q f Hq. destruct (mr_lab2 _ _ _ _ _ _ _ _ _ _ _ R q _ Hq) as (π & -> & Hp). exists π, f. auto using N.le_refl.
    + intros q q' π _ _ -> ->. reflexivity.
  - apply (msum_le _ _ (fun π q => q = MapP.enc e (m_codes _ _ m) π)).
    + intros π f Hp. exists (MapP.enc e (m_codes _ _ m) π), f. split; [reflexivity|].
      split; [apply (mr_lab _ _ _ _ _ _ _ _ _ _ _ R π _ Hp)|reflexivity].
    + intros π π' q [f Hp] [f' Hp'] -> E. apply (enc_inj e _ _ S HC) in E; [exact E| |]; apply (dvalid_inS S D _ HD); eauto.
Qed.
Lemma msum_add {K} `{Countable K} {A} (c c' : K -> A -> N) (m : gmap K A) : msum (fun k x => c k x + c' k x) m = msum c m + msum c' m.
Proof.
  induction m as [|k x m E IH] using map_ind; [rewrite !msum_empty; reflexivity|]. rewrite !msum_insert by exact E. lia.
Qed.
Lemma longest_ge d k : k ∈ dom d -> N.of_nat (length k) <= longest d.
Proof.
  intros H. apply elem_of_elements in H. unfold longest. induction H as [k ks|k k' ks _ IH]; cbn [foldr]; lia.
Qed.
Lemma lens_total S D M : dvalid S D -> dict_of D M -> D <> ∅ -> lens D = label_total M /\ N.of_nat (size D) = N.of_nat (size M).
Proof.
  intros HD HM Hne. pose proof (label_count S D HD Hne) as H. rewrite (dkeys_dom D M HM) in H.
  pose proof (dict_size S D M HD HM) as Hs. unfold label_total. rewrite Hs. split; [|reflexivity].
  assert (size D <> 0%nat) by (intros E; apply Hne, map_size_empty_inv, E). lia.
Qed.
Lemma lab_shared TO NO e srep vs i m S D M b loc lab : mrep TO NO e srep m S D M b loc lab ->
  lsum vs i lab <= shared_bytes vs i M /\ (i_l i = None -> lsum vs i lab = shared_bytes vs i M).
Proof.
  intros R. pose proof (mr_D _ _ _ _ _ _ _ _ _ _ _ R) as HD. pose proof (mr_dict _ _ _ _ _ _ _ _ _ _ _ R) as HM.
  assert (Hne : D <> ∅). { destruct (mr_ne _ _ _ _ _ _ _ _ _ _ _ R) as [x Hx]. intros ->. rewrite lookup_empty in Hx. discriminate. }
  destruct (lens_total S D M HD HM Hne) as [E1 E2]. unfold lsum.
  rewrite (lab_msum _ _ _ _ _ _ _ _ _ _ _ (fun x => key_bytes vs i (fst x)) R). unfold key_bytes, shared_bytes. destruct (i_l i) as [c|].
  - split; [|discriminate]. rewrite <- E1, <- E2. unfold lens. rewrite N.mul_comm, <- msum_const, <- msum_add. apply msum_mono.
    intros π [l v] Hp. cbn [fst]. cbv zeta.
    assert (Hl : N.of_nat (length l) <= longest M).
    { etransitivity; [|apply (longest_ge M (keyof D π))].
      - unfold keyof, label. rewrite Hp, app_length. lia.
      - apply elem_of_dom. exists v. apply (proj1 HM π l v Hp). }
    pose proof (header_mono (N.of_nat (length l) - 1 + N.of_nat vs) (longest M + N.of_nat vs) ltac:(lia)). lia.
  - rewrite <- E1, <- E2. unfold lens. rewrite <- msum_const, <- msum_add. split; reflexivity.
Qed.
Definition shared_bounds (vs : nat) (i : inst) (b cap bcap nodes : N) (M : dict) (bytes : N) : Prop :=
  let u := 2 ^ b * ptr_bits i + 8 * (grown_bytes i cap bcap nodes + shared_bytes vs i M) in
  8 * bytes <= u /\ (i_l i = None -> u < 2 ^ 67 -> 8 * bytes = u).
Lemma shared_empty vs i : shared_bytes vs i ∅ = 0.
Proof.
  unfold shared_bytes, label_total. rewrite dom_empty_L, map_size_empty.
  assert (E : prefixes ∅ = ∅) by (apply set_eq; intros s; rewrite elem_prefixes; set_solver).
  rewrite E, size_empty. destruct (i_l i); lia.
Qed.
Lemma minv_shared dbg vs i e B0 T (K : ipack dbg vs i e B0 T) m S D M b loc : pack_bytes K ->
  minv _ _ e (ip_srep _ _ _ _ _ _ K) (ip_sfresh _ _ _ _ _ _ K) m S D M b loc ->
  (2 ^ b * slot_bits i e b + aux_least i b <= 8 * i_trie_bytes dbg i (m_trie _ _ m) /\
   8 * i_trie_bytes dbg i (m_trie _ _ m) <= 2 ^ b * (slot_bits i e b + aux_bits i) + 8 * aux_map_bytes i (N.of_nat (size loc))) /\
  forall cap bcap, shared_bounds vs i b cap bcap (N.of_nat (size loc)) M (i_label_bytes vs cap bcap i (m_nlm _ _ m)).
Proof.
  intros [H1 H2] [(-> & -> & -> & -> & Hf)|[lab R]].
  - destruct (H2 _ _ _ (mf_store _ _ _ _ _ _ Hf)) as [A B]. rewrite map_size_empty. split; [exact A|]. intros cap bcap.
    destruct (B cap bcap) as (B1 & _ & B2). unfold shared_bounds. rewrite shared_empty. split; [exact B1|exact B2].
  - destruct (H1 _ _ _ _ _ (mr_store _ _ _ _ _ _ _ _ _ _ _ R)) as [A B]. split; [exact A|]. intros cap bcap.
    destruct (B cap bcap) as (B1 & _ & B2). destruct (lab_shared _ _ _ _ vs i _ _ _ _ _ _ _ R) as [H3 H4]. split.
    + eapply N.le_trans; [exact B1|]. apply N.add_le_mono_l, N.mul_le_mono_l, N.add_le_mono_l, H3.
    + intros Hn. rewrite <- (H4 Hn). apply (B2 Hn).
Qed.

Lemma i_shared_ok dbg vs i cb e ops : valid_inst i -> i_supported vs i cb e (updated ops) -> Forall (valid_op vs) ops ->
  i_no_trap dbg i (updated ops) ->
  exists m0, i_new dbg vs i cb (2 ^ e) = Ret m0 /\
    i_yields i cb e (updated ops) (i_run dbg vs i m0 ops) (fun '(_, m) =>
      exists b nodes, i_capa_size dbg vs i m = 2 ^ b /\ (b = N.max 16 cb \/ 2 ^ b * i_mf i <= 200 * (nodes + 8)) /\
        nodes <= dict_nodes e (final vs ops) /\
        (2 ^ b * slot_bits i e b + aux_least i b <= 8 * i_trie_bytes dbg i (m_trie _ _ m) /\
         8 * i_trie_bytes dbg i (m_trie _ _ m) <= 2 ^ b * (slot_bits i e b + aux_bits i) + 8 * aux_map_bytes i nodes) /\
        forall cap bcap, shared_bounds vs i b cap bcap nodes (final vs ops) (i_label_bytes vs cap bcap i (m_nlm _ _ m))).
Proof.
  intros Hvi Hsup Hv Hnt. destruct (i_supported_limit _ _ _ _ _ Hvi Hsup) as (He & Hcb & Hroom & _).
  pose proof (proj1 Hvi) as Hmf. destruct Hsup as (Hvs & Hcb' & Hn & HA).
  assert (HB : 16 <= N.max 16 cb) by lia.
  destruct (inst_pack_bytes dbg vs i e (N.max 16 cb) (nodes_for e (updated ops) + 2) Hvi Hvs HB ltac:(lia)) as [K HK].
  pose proof (ip_ok _ _ _ _ _ _ K) as PK.
  destruct (map_new_ok _ _ _ _ _ _ _ _ _ _ PK He cb Hcb) as (m0 & E & Hf); [reflexivity|].
  exists m0. split; [exact E|]. pose proof (mfresh_minv _ _ e (ip_srep _ _ _ _ _ _ K) (ip_sfresh _ _ _ _ _ _ K) _ _ Hf) as Hf0. clear Hf. rename Hf0 into Hf.
  apply (wpx_i_yields vs); [exact Hvi|repeat split; assumption|].
  eapply wpx_mono.
  { apply (run_ok dbg _ _ _ _ e _ _ _ _ _ PK He Hmf ops m0 {[ 0 ]} ∅ ∅ _ ∅ (alphabet (updated ops)) Hf).
    - rewrite i_vs. exact Hv.
    - apply i_no_trap_forall, Hnt.
    - unfold alphabet. set_solver.
    - reflexivity.
    - exact HA.
    - cbn [i_lim l_max]. rewrite dom_empty_L, union_empty_l_L. unfold nodes_for. lia. }
  intros [xs m] (_ & S & D & b & loc & Hb & Hi & _). rewrite i_vs in Hi. change (snd (spec_run vs ∅ ops)) with (final vs ops) in Hi.
  exists b, (N.of_nat (size loc)).
  destruct (minv_capa _ _ _ _ _ _ _ _ _ _ PK _ _ _ _ _ _ Hi) as (_ & Hcap & _).
  destruct (minv_count _ _ _ _ _ _ _ _ _ _ _ Hi) as (Hcnt & _).
  pose proof (minv_tight _ _ _ _ _ _ _ _ _ _ PK _ _ _ _ _ _ Hi) as Htg.
  pose proof (minv_bits _ _ _ _ _ _ _ _ _ _ PK _ _ _ _ _ _ Hi) as Hbl.
  split; [|split; [|split]].
  - unfold i_capa_size, map_capa_size. rewrite Hcap. apply p2_size_ones. pose proof (bits_limit_le (8 + e)). lia.
  - destruct Htg as [Ht|Ht]; [left; cbn [i_lim l_b0] in Ht; lia|right].
    pose proof (bits_limit_le (8 + e)) as Hlim. pose proof (max_size_near (b - 1) (i_mf i) ltac:(lia) Hmf) as Hx.
    replace b with ((b - 1) + 1) at 1 by lia. rewrite pow2_succ. clear -Ht Hx. lia.
  - exact Hcnt.
  - apply (minv_shared _ _ _ _ _ _ K _ _ _ _ _ _ HK Hi).
Qed.
