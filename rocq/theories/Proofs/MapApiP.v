(** The map with its constructors, reads and writes through value pointers, as a whole. *)
From Verif.Proofs Require Export MapP.
From Verif.Proofs Require Import BitTools2P.
From Verif.Model Require Export Api.
Local Open Scope N_scope.

Section map_api.
  Context (dbg : bool) (TO : trie_ops) (NO : nlm_ops) (L : lims) (mf e : N) (B : bool) {Q : Type} (stable : nT NO -> N -> Q -> Prop).
  Context (srep : N -> tT TO -> nT NO -> locmap -> labmap -> Prop) (sfresh : N -> tT TO -> nT NO -> Prop).
  Context (npt : nT NO -> N -> ptr -> Prop).
  Hypothesis HS : store_ok TO NO L mf (8 + e) B stable srep sfresh npt.
  Hypothesis He : e <= 39.
  Notation vs := (n_vs NO).
  Notation map_st := (map_st TO NO).
  Notation mrep := (mrep TO NO e srep).
  Notation mpt := (mpt TO NO e npt).
  Notation smpt := (MapP.mpt TO NO e stable).
  Notation kept := (kept TO NO e stable).

  Record mfresh (b : N) (m : map_st) : Prop := {
    mf_ready : m_ready _ _ m = true;
    mf_lam : m_lambda _ _ m = 2 ^ e;
    mf_store : sfresh b (m_trie _ _ m) (m_nlm _ _ m);
    mf_codes : codes_ok (m_codes _ _ m) (m_num_codes _ _ m) {[ 0 ]};
    mf_b : 16 <= b <= bits_limit (8 + e);
    mf_size : m_size _ _ m = 0 }.

  Definition minv (m : map_st) (S : gset N) (D : dmap) (M : gmap (list N) (list N)) (b : N) (loc : locmap) : Prop :=
    (D = ∅ /\ M = ∅ /\ loc = ∅ /\ S = {[ 0 ]} /\ mfresh b m) \/ (exists lab, mrep m S D M b loc lab).

  Lemma ceil_log2_pow : e < 64 -> ceil_log2 (2 ^ e) = Ret e.
  Proof.
    intros H. pose proof (pow2_pos e) as Hp.
    destruct (ceil_log2_ok (2 ^ e) ltac:(lia) (pow2_lt _ _ H)) as (n & E & H1 & H2).
    rewrite E. f_equal. specialize (H2 e ltac:(lia)). destruct (N.eq_dec n e) as [|Hne]; [assumption|].
    assert (2 ^ n < 2 ^ e); [apply pow2_lt; lia|lia].
  Qed.
  Lemma map_new_ok cb : N.max 16 cb <= bits_limit (8 + e) -> l_b0 L = N.max 16 cb ->
    exists m, map_new TO NO cb (2 ^ e) = Ret m /\ mfresh (N.max 16 cb) m.
  Proof.
    intros Hcb Hb0. destruct (so_new _ _ _ _ _ _ _ _ _ _ HS cb Hcb Hb0) as (t & n & Et & En & Hf).
    unfold map_new. assert (Hp : is_power2 (2 ^ e) = true).
    { apply is_power2_ok; [apply pow2_lt; lia|]. eauto. }
    rewrite Hp. unfold throw_if; cbn [negb]. rewrite bind_ret, ceil_log2_pow by lia.
    rewrite bind_ret, Et, bind_ret, En, bind_ret.
    rewrite vset_ok by reflexivity. rewrite bind_ret. eexists. split; [reflexivity|].
    split; try reflexivity; [exact Hf|apply codes_ok_init|lia].
  Qed.
  Lemma mfresh_minv b m : mfresh b m -> minv m {[ 0 ]} ∅ ∅ b ∅.
  Proof. intros H. left. auto. Qed.

  Lemma check_key_ok k : okey k -> check_key k = Ret tt.
  Proof.
    intros Hk. destruct (okey_last k Hk) as [H1 H2]. unfold check_key. destruct k; [congruence|].
    unfold throw_if. rewrite bind_ret, H2. reflexivity.
  Qed.

  Lemma minv_find m S D M b loc k : minv m S D M b loc -> okey k -> bytes k -> N.of_nat (length k) < 2 ^ 64 ->
    wp (map_find dbg TO NO m k) (fun r => match r with
      | None => M !! k = None
      | Some p => is_Some (M !! k) /\ mpt m D loc k p end).
  Proof.
    intros [(-> & -> & -> & -> & Hf)|[lab R]] Hk Hb Hlen.
    - unfold map_find. rewrite (check_key_ok k Hk), bind_ret, (mf_ready _ _ Hf).
      destruct (so_fresh _ _ _ _ _ _ _ _ _ _ HS _ _ _ (mf_store _ _ Hf)) as [-> _].
      cbn [negb orb]. apply wp_ret. apply lookup_empty.
    - eapply (map_find_ok dbg TO NO L mf e B stable srep sfresh npt HS He); eauto.
  Qed.

  (** What an update does (the map may have been empty). *)
  Definition upost (m : map_st) (S : gset N) (D : dmap) (M : gmap (list N) (list N)) (b : N) (loc : locmap)
      (k : list N) (r : update_result) (m' : map_st) : Prop :=
    exists S' D' b' loc', b <= b' /\ S ⊆ S' /\ S' ⊆ S ∪ list_to_set k /\
      kept m D loc m' D' loc' /\
      match r with
      | UThrow x => x = ExCodes /\ D' = D /\ M !! k = None /\ minv m' S' D M b' loc' /\
          size S = 254%nat /\ size S' = 255%nat
      | UPtr None => False
      | UPtr (Some p) =>
          minv m' S' D' (match M !! k with Some _ => M | None => <[k := zeros vs]> M end) b' loc' /\
          mpt m' D' loc' k p /\ (S' = S \/ (size S' <= 254)%nat) /\ (M !! k = None -> (size loc < size loc')%nat)
      end.

  Lemma mfresh_first m b k : mfresh b m -> okey k -> small vs k ->
    exists m' p D' loc', map_update dbg TO NO m k = Ret (UPtr (Some p), m') /\
      minv m' {[ 0 ]} D' {[ k := zeros vs ]} b loc' /\ size loc' = 1%nat /\ mpt m' D' loc' k p.
  Proof.
    intros Hf Hk Hsm. unfold map_update. rewrite (check_key_ok k Hk), bind_ret.
    destruct (so_fresh _ _ _ _ _ _ _ _ _ _ HS _ _ _ (mf_store _ _ Hf)) as [Hsz _]. rewrite Hsz, N.eqb_refl.
    rewrite (mf_ready _ _ Hf). cbn [negb]. rewrite bind_ret.
    destruct (so_first _ _ _ _ _ _ _ _ _ _ HS b _ _ k (mf_store _ _ Hf) Hsm) as (p & t' & n' & r & E & Hs & Hp).
    rewrite E, bind_ret.
    set (D' := {[ [] := (k, zeros vs) ]} : dmap).
    assert (HD0 : D' !! [] = Some (k, zeros vs)) by apply lookup_singleton.
    assert (HDi : forall π x, D' !! π = Some x -> π = [] /\ x = (k, zeros vs)).
    { intros π x Hx. apply lookup_singleton_Some in Hx as [<- <-]. auto. }
    assert (HV : dvalid {[ 0 ]} D').
    { split.
      - intros l v Hl. apply HDi in Hl as [_ [= -> ->]]. exact Hk.
      - intros mm c π l v Hl. apply HDi in Hl as [Hl _]. discriminate. }
    assert (Hkey : keyof D' [] = k). { unfold keyof, label. rewrite HD0. reflexivity. }
    eexists _, p, D', {[ [] := r ]}. split; [reflexivity|]. split; [|split].
    - right. exists {[ [] := (k, zeros vs) ]}.
      split; cbn [m_trie m_nlm m_codes m_num_codes m_size m_ready m_lambda].
      + apply (mf_ready _ _ Hf).
      + apply (mf_lam _ _ Hf).
      + exact Hs.
      + apply (mf_codes _ _ Hf).
      + exact HV.
      + split.
        * intros π l v Hl. apply HDi in Hl as [-> [= -> ->]]. rewrite Hkey. apply lookup_singleton.
        * intros k' v Hv. apply lookup_singleton_Some in Hv as [<- <-]. eauto.
      + eauto.
      + intros π x Hx. apply HDi in Hx as [-> ->]. apply lookup_singleton.
      + intros q x Hx. apply lookup_singleton_Some in Hx as [<- <-]. exists []. auto.
      + intros q [x Hx]. apply lookup_singleton_Some in Hx as [<- _]. exists O, []. split; [reflexivity|]. apply fits_0. eauto.
      + rewrite (mf_size _ _ Hf), map_size_singleton. reflexivity.
    - apply map_size_singleton.
    - exists [], r. split; [eauto|]. split; [exact Hkey|]. split; [apply lookup_singleton|exact Hp].
  Qed.

  Lemma minv_update_gen m S D M b loc k : minv m S D M b loc -> okey k -> bytes k ->
    small vs k -> (B = true -> k <> [0]) ->
    node_bound e (dom M) + 1 < l_max L ->
    ((size S < 255)%nat \/ (forall c, c ∈ k -> c ∈ S) \/ (dbg = true /\ L)) ->
    wpx L (map_update dbg TO NO m k) (fun '(r, m') => upost m S D M b loc k r m').
  Proof.
    intros [(-> & -> & -> & -> & Hf)|[lab R]] Hk Hb Hsm HB Hroom HS255.
    - destruct (mfresh_first m b k Hf Hk Hsm) as (m' & p & D' & loc' & E & Hinv & Hsz & Hp).
      rewrite E. apply wpx_ret. exists {[ 0 ]}, D', b, loc'. split; [lia|]. split; [set_solver|]. split; [set_solver|].
      split. { split; [rewrite map_size_empty; apply Nat.le_0_l|]. intros k' q (π & x & [y Hy] & _). rewrite lookup_empty in Hy. discriminate. }
      rewrite lookup_empty, insert_empty. split; [exact Hinv|]. split; [exact Hp|]. split; [auto|].
      intros _. rewrite Hsz, map_size_empty. constructor.
    - eapply wpx_mono.
      { eapply (map_update_gen dbg TO NO L mf e B stable srep sfresh npt HS He); eauto. }
      intros [r m'] (S' & D' & b' & loc' & lab' & H1 & H2 & H3 & H5 & H6).
      exists S', D', b', loc'. split; [exact H1|]. split; [exact H2|]. split; [exact H3|].
      split; [exact H5|]. destruct r as [[p|]|x].
      + destruct H6 as (H6 & H7 & H8). split; [right; eauto|]. auto.
      + exact H6.
      + destruct H6 as (H6 & H7 & H8 & H9 & H10). split; [exact H6|]. split; [exact H7|]. split; [exact H8|].
        split; [right; eauto|exact H10].
  Qed.

  Lemma minv_update m S D M b loc k : minv m S D M b loc -> okey k -> bytes k ->
    small vs k -> (B = true -> k <> [0]) ->
    node_bound e (dom M) + 1 < l_max L ->
    ((size S < 255)%nat \/ forall c, c ∈ k -> c ∈ S) ->
    wpx L (map_update dbg TO NO m k) (fun '(r, m') => upost m S D M b loc k r m').
  Proof. intros Hi Hk Hb Hsm HB Hroom HS255. apply minv_update_gen; try assumption. destruct HS255; auto. Qed.

  (** Reading and writing through a value pointer. *)
  Lemma minv_read m S D M b loc k p : minv m S D M b loc -> mpt m D loc k p ->
    exists v, M !! k = Some v /\ hp_read (n_heap NO (m_nlm _ _ m)) p vs = Ret v.
  Proof.
    intros [(-> & -> & -> & -> & Hf)|[lab R]] (π & x & [y Hy] & Ek & Hx & Hp).
    { rewrite lookup_empty in Hy. discriminate. }
    destruct y as [l v].
    destruct (so_read _ _ _ _ _ _ _ _ _ _ HS _ _ _ _ _ _ _ _ (mr_store _ _ _ _ _ _ _ _ _ _ _ R) Hx Hp) as (l' & v' & Hl & Hr).
    rewrite (mr_lab _ _ _ _ _ _ _ _ _ _ _ R π _ Hy) in Hl. injection Hl as <- <-.
    exists v. split; [|exact Hr]. rewrite <- Ek. destruct (mr_dict _ _ _ _ _ _ _ _ _ _ _ R) as [Hd _]. apply (Hd π l v Hy).
  Qed.

  Lemma minv_write m S D M b loc k p w : minv m S D M b loc -> mpt m D loc k p -> length w = vs ->
    exists h D', hp_write (n_heap NO (m_nlm _ _ m)) p w = Ret h /\ minv (set_heap TO NO m h) S D' (<[k := w]> M) b loc /\
      (forall k' q, mpt m D loc k' q -> mpt (set_heap TO NO m h) D' loc k' q) /\
      (forall k' q, smpt m D loc k' q -> smpt (set_heap TO NO m h) D' loc k' q).
  Proof.
    intros [(-> & -> & -> & -> & Hf)|[lab R]] (π & x & [y Hy] & Ek & Hx & Hp) Hw.
    { rewrite lookup_empty in Hy. discriminate. }
    destruct y as [l v]. pose proof (mr_lab _ _ _ _ _ _ _ _ _ _ _ R π _ Hy) as Hlab.
    pose proof (mr_D _ _ _ _ _ _ _ _ _ _ _ R) as HD. pose proof (mr_codes _ _ _ _ _ _ _ _ _ _ _ R) as HC.
    destruct (so_write _ _ _ _ _ _ _ _ _ _ HS _ _ _ _ _ _ x p l v w (mr_store _ _ _ _ _ _ _ _ _ _ _ R) Hx Hp Hlab Hw)
      as (h & Eh & Hs & Hpt & Hst).
    assert (Hko : forall ρ z, D !! ρ = Some z -> keyof (<[π := (l, w)]> D) ρ = keyof D ρ).
    { intros ρ z Hz. apply (keyof_ext S D HD _ ρ z Hz). intros ρ' l1 v1 H1. apply (label_write D π l v w ρ' l1 v1 Hy H1). }
    assert (Hso : forall ρ, is_Some (D !! ρ) -> is_Some (<[π := (l, w)]> D !! ρ)).
    { intros ρ Hr. destruct (decide (ρ = π)) as [->|Hne]; [rewrite lookup_insert; eauto|].
      rewrite lookup_insert_ne by congruence. exact Hr. }
    exists h, (<[π := (l, w)]> D). split; [exact Eh|]. split; [|split].
    - right. exists (<[enc e (m_codes _ _ m) π := (l, w)]> lab).
      split; cbn [m_trie m_nlm m_codes m_num_codes m_size m_ready m_lambda set_heap];
        try solve [destruct R; assumption].
      + apply (dvalid_write S D HD π l v w Hy).
      + rewrite <- Ek. apply (dict_write S D M π l v w HD (mr_dict _ _ _ _ _ _ _ _ _ _ _ R) Hy).
      + apply Hso, (mr_ne _ _ _ _ _ _ _ _ _ _ _ R).
      + intros ρ z Hz. destruct (decide (ρ = π)) as [->|Hne].
        * rewrite lookup_insert in Hz. rewrite lookup_insert. exact Hz.
        * rewrite lookup_insert_ne in Hz by congruence. rewrite lookup_insert_ne.
          -- apply (mr_lab _ _ _ _ _ _ _ _ _ _ _ R ρ z Hz).
          -- intros E. apply Hne. symmetry.
             apply (enc_inj e _ _ S HC); [| |exact E]; apply (dvalid_inS S D _ HD); eauto.
      + intros q z Hz. destruct (decide (q = enc e (m_codes _ _ m) π)) as [->|Hne].
        * rewrite lookup_insert in Hz. injection Hz as <-. exists π. rewrite lookup_insert. auto.
        * rewrite lookup_insert_ne in Hz by congruence.
          destruct (mr_lab2 _ _ _ _ _ _ _ _ _ _ _ R q z Hz) as (ρ & Eq & Hr). exists ρ. split; [exact Eq|].
          rewrite lookup_insert_ne by congruence. exact Hr.
      + intros q Hq. destruct (mr_nodes _ _ _ _ _ _ _ _ _ _ _ R q Hq) as (j & ρ & Eq & Hr). exists j, ρ.
        split; [exact Eq|]. revert Hr. apply fits_ext. intros l1 v1 H1. destruct (decide (ρ = π)) as [->|Hne].
        * rewrite lookup_insert. rewrite Hy in H1. injection H1 as <- _. eauto.
        * rewrite lookup_insert_ne by congruence. eauto.
      + rewrite (mr_size _ _ _ _ _ _ _ _ _ _ _ R). f_equal. f_equal.
        destruct (mr_dict _ _ _ _ _ _ _ _ _ _ _ R) as [Hd _]. rewrite map_size_insert_Some; [reflexivity|].
        rewrite <- Ek. rewrite (Hd π l v Hy). eauto.
    - intros k' q (ρ & z & [y' Hy'] & Ekr & Hz & Hq). exists ρ, z. split; [apply Hso; eauto|].
      split; [rewrite (Hko ρ y' Hy'); exact Ekr|]. split; [exact Hz|]. cbn [m_nlm set_heap]. apply Hpt, Hq.
    - intros k' q (ρ & z & [y' Hy'] & Ekr & Hz & Hq). exists ρ, z. split; [apply Hso; eauto|].
      split; [rewrite (Hko ρ y' Hy'); exact Ekr|]. split; [exact Hz|]. cbn [m_nlm set_heap]. apply Hst, Hq.
  Qed.

  Lemma minv_size m S D M b loc : minv m S D M b loc -> m_size _ _ m = w64 (N.of_nat (size M)).
  Proof.
    intros [(-> & -> & -> & -> & Hf)|[lab R]]; [rewrite (mf_size _ _ Hf); reflexivity|].
    apply (mr_size _ _ _ _ _ _ _ _ _ _ _ R).
  Qed.
  (** The number of nodes. *)
  Lemma minv_count m S D M b loc : minv m S D M b loc ->
    N.of_nat (size loc) <= node_bound e (dom M) /\ N.of_nat (size M) <= node_bound e (dom M).
  Proof.
    intros H. split.
    - destruct H as [(-> & -> & -> & -> & Hf)|[lab R]]; [rewrite map_size_empty; apply N.le_0_l|].
      apply (mrep_count _ _ _ _ _ _ _ _ _ _ _ R).
    - rewrite <- size_dom. apply nb_size.
  Qed.
  Lemma minv_count_ge m S D M b loc : minv m S D M b loc -> (size M <= size loc)%nat.
  Proof.
    intros [(-> & -> & -> & -> & Hf)|[lab R]]; [rewrite !map_size_empty; lia|].
    pose proof (mr_D _ _ _ _ _ _ _ _ _ _ _ R) as HD. pose proof (mr_codes _ _ _ _ _ _ _ _ _ _ _ R) as HC.
    rewrite (dict_size S D M HD (mr_dict _ _ _ _ _ _ _ _ _ _ _ R)).
    set (ps := (fun x : node * (list N * list N) => enc e (m_codes _ _ m) (fst x)) <$> map_to_list D).
    assert (Hnd : NoDup ps).
    { apply NoDup_fmap_2_strong; [|apply NoDup_map_to_list].
      intros [π f] [ρ g] Hx Hy E. apply elem_of_map_to_list in Hx. apply elem_of_map_to_list in Hy. simpl in E.
      apply (enc_inj e _ _ S HC) in E as ->; [congruence| |]; apply (dvalid_inS S D _ HD); eauto. }
    assert (El : length ps = size D) by (unfold ps; rewrite fmap_length; reflexivity).
    rewrite <- El, <- (size_list_to_set (C := gset (list N)) ps Hnd), <- (size_dom loc).
    apply subseteq_size. intros q Hq. apply elem_of_list_to_set, elem_of_list_fmap in Hq as ([π f] & -> & Hx).
    apply elem_of_map_to_list in Hx. apply elem_of_dom.
    destruct (mrep_loc _ _ _ _ _ _ _ _ _ _ HS _ _ _ _ _ _ _ π R (mk_is_Some _ _ Hx)) as [x Hx']. eauto.
  Qed.
  (** The capacity is not larger than needed. *)
  Lemma minv_tight m S D M b loc : minv m S D M b loc -> tight L mf b loc.
  Proof.
    intros [(-> & -> & -> & -> & Hf)|[lab R]].
    - left. rewrite (so_fresh_b _ _ _ _ _ _ _ _ _ _ HS _ _ _ (mf_store _ _ Hf)). apply N.le_refl.
    - apply (so_tight _ _ _ _ _ _ _ _ _ _ HS _ _ _ _ _ (mr_store _ _ _ _ _ _ _ _ _ _ _ R)).
  Qed.
  (** Capacity and load. *)
  Lemma minv_capa m S D M b loc : minv m S D M b loc ->
    m_ready _ _ m = true /\ t_capa TO (m_trie _ _ m) = mkP2 b (N.ones b) /\ t_size TO (m_trie _ _ m) = N.of_nat (size loc) /\
    match t_kind TO with Bonsai => N.of_nat (size loc) < max_size_of (2 ^ b) mf \/ loc = ∅
                       | Fkhash => N.of_nat (size loc) <= max_size_of (2 ^ b) mf end.
  Proof.
    intros [(-> & -> & -> & -> & Hf)|[lab R]].
    - destruct (so_fresh _ _ _ _ _ _ _ _ _ _ HS _ _ _ (mf_store _ _ Hf)) as [H1 H2].
      split; [apply (mf_ready _ _ Hf)|]. split; [exact H2|]. rewrite map_size_empty. split; [exact H1|].
      destruct (t_kind TO); [right; reflexivity|apply N.le_0_l].
    - pose proof (mr_store _ _ _ _ _ _ _ _ _ _ _ R) as Hs.
      split; [apply (mr_ready _ _ _ _ _ _ _ _ _ _ _ R)|]. split; [apply (so_capa _ _ _ _ _ _ _ _ _ _ HS _ _ _ _ _ Hs)|].
      pose proof (so_size _ _ _ _ _ _ _ _ _ _ HS _ _ _ _ _ Hs) as Hz.
      pose proof (so_load _ _ _ _ _ _ _ _ _ _ HS _ _ _ _ _ Hs) as Hl. rewrite Hz in Hl. split; [exact Hz|].
      destruct (t_kind TO); [left; exact Hl|exact Hl].
  Qed.
  Lemma minv_bits m S D M b loc : minv m S D M b loc -> 16 <= b <= bits_limit (8 + e).
  Proof.
    intros [(-> & -> & -> & -> & Hf)|[lab R]]; [apply (mf_b _ _ Hf)|].
    apply (so_b _ _ _ _ _ _ _ _ _ _ HS _ _ _ _ _ (mr_store _ _ _ _ _ _ _ _ _ _ _ R)).
  Qed.
End map_api.
