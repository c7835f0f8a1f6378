(** Histories of map operations refine the dictionary. *)
From Verif.Proofs Require Export MapApiP.
Local Open Scope N_scope.

Lemma valid_okey k : valid_key k -> okey k /\ bytes k.
Proof.
  intros (s & -> & Hs). split.
  - exists s. split; [reflexivity|]. intros H. rewrite Forall_forall in Hs.
    specialize (Hs 0 ltac:(apply elem_of_list_In; exact H)). lia.
  - apply Forall_app. split; [|repeat constructor].
    eapply Forall_impl; [exact Hs|]. simpl. lia.
Qed.
Lemma total_cons k ks : total_length (k :: ks) = N.of_nat (length k) + total_length ks.
Proof. unfold total_length. simpl. rewrite app_length. lia. Qed.

Lemma nb_room (L : lims) (e : N) (K K' : gset (list N)) : K ⊆ K' ->
  node_bound e K' + 1 < l_max L -> node_bound e K + 1 < l_max L.
Proof. intros H. pose proof (nb_mono e _ _ H). lia. Qed.

Section hist.
  Context (dbg : bool) (TO : trie_ops) (NO : nlm_ops) (L : lims) (mf e : N) (B : bool) {Q : Type} (stable : nT NO -> N -> Q -> Prop).
  Context (srep : N -> tT TO -> nT NO -> locmap -> labmap -> Prop) (sfresh : N -> tT TO -> nT NO -> Prop).
  Context (npt : nT NO -> N -> ptr -> Prop).
  Hypothesis HS : store_ok TO NO L mf (8 + e) B stable srep sfresh npt.
  Hypothesis He : e <= 39.
  Hypothesis Hmf : 1 <= mf <= 99.
  Notation vs := (n_vs NO).
  Notation map_st := (map_st TO NO).
  Notation mpt := (mpt TO NO e npt).
  Notation kept := (kept TO NO e stable).
  Notation minv := (minv TO NO e srep sfresh).

  (** An update within the alphabet. *)
  Lemma update_alpha m S D M b loc k (A : gset N) : minv m S D M b loc -> valid_key k -> small vs k ->
    (B = true -> k <> [0]) -> node_bound e (dom M) + 1 < l_max L ->
    S ⊆ A -> list_to_set k ⊆ A -> (size A <= 254)%nat ->
    wpx L (map_update dbg TO NO m k) (fun '(r, m') => exists p S' D' b' loc', r = UPtr (Some p) /\
      b <= b' /\ S' ⊆ A /\
      (kept m D loc m' D' loc' /\ (M !! k = None -> (size loc < size loc')%nat)) /\
      minv m' S' D' (<[k := default (zeros vs) (M !! k)]> M) b' loc' /\ mpt m' D' loc' k p).
  Proof.
    intros Hi Hk Hsm HB Hroom HSA HkA HA. destruct (valid_okey k Hk) as [Hok Hb].
    assert (HSs : (size S <= size A)%nat) by (apply subseteq_size, HSA).
    eapply wpx_mono.
    { eapply (minv_update dbg TO NO L mf e B stable srep sfresh npt HS He m S D M b loc k); try eassumption. left. lia. }
    intros [r m'] (S' & D' & b' & loc' & H1 & H2 & H3 & H5 & H6).
    assert (HSA' : S' ⊆ A). { etransitivity; [exact H3|]. apply union_subseteq. auto. }
    destruct r as [[p|]|x].
    - destruct H6 as (H6 & H7 & _ & H8). exists p, S', D', b', loc'. split; [reflexivity|]. split; [exact H1|].
      split; [exact HSA'|]. split; [split; [exact H5|exact H8]|]. split; [|exact H7].
      destruct (M !! k) as [v|] eqn:EM; cbn [default from_option]; [|exact H6].
      unfold id. rewrite insert_id by exact EM. exact H6.
    - destruct H6.
    - exfalso. destruct H6 as (_ & _ & _ & _ & _ & H6). apply subseteq_size in HSA'. lia.
  Qed.

  Lemma w64_small n used : n <= used -> used + 1 < l_max L -> w64 n = n.
  Proof.
    intros H1 H2. rewrite w64_mod. apply N.mod_small. pose proof (node_limit_57 mf (8 + e) Hmf) as H. pose proof (so_lim _ _ _ _ _ _ _ _ _ _ HS).
    assert (2 ^ 57 < 2 ^ 64) by reflexivity. lia.
  Qed.
  Lemma minv_size_small m S D M b loc : minv m S D M b loc -> node_bound e (dom M) + 1 < l_max L ->
    m_size _ _ m = N.of_nat (size M).
  Proof.
    intros Hi Hroom. rewrite (minv_size TO NO e srep sfresh m _ _ _ _ _ Hi).
    apply (w64_small _ (node_bound e (dom M))); [|exact Hroom].
    apply (minv_count TO NO e srep sfresh m _ _ _ _ _ Hi).
  Qed.

  Theorem run_ok ops : forall m S D M b loc (A : gset N), minv m S D M b loc ->
    Forall (valid_op vs) ops -> (B = true -> Forall (fun k => k <> [0]) (updated ops)) ->
    S ⊆ A -> alphabet (updated ops) ⊆ A -> (size A <= 254)%nat ->
    node_bound e (dom M ∪ list_to_set (updated ops)) + 1 < l_max L ->
    wpx L (api_run dbg TO NO m ops) (fun '(xs, m') => xs = fst (spec_run vs M ops) /\
      exists S' D' b' loc', b <= b' /\ minv m' S' D' (snd (spec_run vs M ops)) b' loc' /\ S' ⊆ A).
  Proof.
    induction ops as [|o ops IH]; intros m S D M b loc A Hi Hv HB HSA HA HA4 Hroom.
    - apply wpx_ret. split; [reflexivity|]. exists S, D, b, loc. split; [reflexivity|]. split; [exact Hi|exact HSA].
    - apply Forall_cons_1 in Hv as [Hv Hvs]. destruct o as [k w|k].
      + destruct Hv as (Hk & Hsm & Hw). change (updated (Update k w :: ops)) with (k :: updated ops) in *.
        assert (Hdom : forall v, dom (<[k := v]> M) ∪ list_to_set (updated ops) = dom M ∪ list_to_set (k :: updated ops)).
        { intros v. rewrite dom_insert_L, list_to_set_cons. clear. set_solver. }
        assert (HkA : (list_to_set k : gset N) ⊆ A /\ alphabet (updated ops) ⊆ A).
        { unfold alphabet in *. simpl in HA. rewrite list_to_set_app_L in HA. set_solver. }
        destruct HkA as [HkA HAo].
        cbn [api_run]. unfold api_step. apply wpx_bind. apply wpx_bind. eapply wpx_mono.
        { apply (update_alpha m S D M b loc k A Hi Hk Hsm); auto.
          - intros Hb. specialize (HB Hb). apply Forall_cons_1 in HB as [H _]. exact H.
          - revert Hroom. apply nb_room. clear. set_solver. }
        intros [r m1] (p & S1 & D1 & b1 & loc1 & -> & Hb1 & HS1 & Hst1 & Hi1 & Hp1).
        destruct (minv_read TO NO L mf e B stable srep sfresh npt HS m1 S1 D1 _ b1 loc1 k p Hi1 Hp1) as (v & Hv1 & Er).
        rewrite lookup_insert in Hv1. injection Hv1 as <-. unfold map_read. rewrite Er, bind_ret.
        set (old := default (replicate vs 0) (M !! k)) in *.
        assert (Erun : spec_run vs M (Update k w :: ops) =
          (let '(xs, d) := spec_run vs (<[k := default old w]> M) ops in
           ((Saw old, N.of_nat (size (<[k := default old w]> M))) :: xs, d))) by reflexivity.
        rewrite Erun.
        assert (Eold : default (zeros vs) (M !! k) = old).
        { unfold old, zeros. f_equal. clear. induction vs as [|n IH]; simpl; congruence. }
        rewrite Eold in *.
        assert (Hm2 : exists m2 D2, match w with None => Ret m1 | Some w => map_write TO NO m1 p w end = Ret m2 /\
           minv m2 S1 D2 (<[k := default old w]> M) b1 loc1).
        { destruct w as [w|].
          - destruct (minv_write TO NO L mf e B stable srep sfresh npt HS m1 S1 D1 _ b1 loc1 k p w Hi1 Hp1 Hw)
              as (h & D2 & Eh & Hi2 & _).
            unfold map_write. rewrite Eh, bind_ret. eexists _, D2. split; [reflexivity|].
            rewrite insert_insert in Hi2. exact Hi2.
          - exists m1, D1. split; [reflexivity|exact Hi1]. }
        destruct Hm2 as (m2 & D2 & -> & Hi2). rewrite bind_ret.
        rewrite <- (Hdom (default old w)) in Hroom.
        apply wpx_ret. destruct (spec_run vs (<[k := default old w]> M) ops) as [xs d] eqn:Espec.
        apply wpx_bind. eapply wpx_mono.
        { apply (IH m2 S1 D2 _ b1 loc1 A Hi2 Hvs); auto.
          intros Hb. specialize (HB Hb). apply Forall_cons_1 in HB as [_ H]. exact H. }
        rewrite Espec. intros [ys m3] (-> & S3 & D3 & b3 & loc3 & Hb3 & Hi3 & HS3). apply wpx_ret. cbn [fst snd] in *. split.
        * f_equal. f_equal. apply (minv_size_small m2 _ _ _ _ _ Hi2). revert Hroom. apply nb_room. clear. set_solver.
        * exists S3, D3, b3, loc3. split; [lia|]. split; [exact Hi3|exact HS3].
      + destruct Hv as (Hk & Hlen). change (updated (Find k :: ops)) with (updated ops) in *.
        destruct (valid_okey k Hk) as [Hok Hb].
        cbn [api_run]. unfold api_step. apply wpx_bind. apply wpx_bind. eapply wpx_mono.
        { apply wp_wpx. apply (minv_find dbg TO NO L mf e B stable srep sfresh npt HS He m S D M b loc k Hi Hok Hb Hlen). }
        assert (Erun : spec_run vs M (Find k :: ops) =
          (let '(xs, d) := spec_run vs M ops in ((Found (M !! k), N.of_nat (size M)) :: xs, d))) by reflexivity.
        rewrite Erun.
        assert (Esz : m_size _ _ m = N.of_nat (size M)).
        { apply (minv_size_small m _ _ _ _ _ Hi). revert Hroom. apply nb_room. clear. set_solver. }
        destruct (spec_run vs M ops) as [xs d] eqn:Espec.
        assert (Hrest : wpx L (api_run dbg TO NO m ops) (fun '(ys, m') => ys = xs /\
           exists S' D' b' loc', b <= b' /\ minv m' S' D' d b' loc' /\ S' ⊆ A)).
        { pose proof (IH m S D M b loc A Hi Hvs HB HSA HA HA4 Hroom) as H. rewrite Espec in H. exact H. }
        intros [p|] Hr.
        * destruct Hr as [_ Hp].
          destruct (minv_read TO NO L mf e B stable srep sfresh npt HS m S D M b loc k p Hi Hp) as (v & Hv1 & Er).
          unfold map_read. rewrite Er, bind_ret. apply wpx_ret. apply wpx_bind. eapply wpx_mono; [exact Hrest|].
          intros [ys m3] [-> H3]. apply wpx_ret. cbn [fst snd]. rewrite Hv1, Esz. auto.
        * apply wpx_ret. apply wpx_bind. eapply wpx_mono; [exact Hrest|].
          intros [ys m3] [-> H3]. apply wpx_ret. cbn [fst snd]. rewrite Hr, Esz. auto.
  Qed.

  (** *** Kept pointers *)
  Definition handles (m : map_st) (D : dmap) (loc : locmap) (hs : list (option ptr)) (ks : list (option (list N))) : Prop :=
    Forall2 (fun o k => match o, k with Some p, Some k => mpt m D loc k p | None, None => True | _, _ => False end) hs ks.

  Lemma handles_mono m D loc m' D' loc' hs ks :
    (forall k p, mpt m D loc k p -> mpt m' D' loc' k p) -> handles m D loc hs ks -> handles m' D' loc' hs ks.
  Proof. intros H Hh. eapply Forall2_impl; [exact Hh|]. intros [p|] [k|]; simpl; auto. Qed.

  Theorem hrun_ok ops : pts_stable stable npt -> forall m hs S D M ks b loc (A : gset N) r, minv m S D M b loc ->
    handles m D loc hs ks ->
    Forall (hvalid_op vs) ops -> (B = true -> Forall (fun k => k <> [0]) (hupdated ops)) ->
    S ⊆ A -> alphabet (hupdated ops) ⊆ A -> (size A <= 254)%nat ->
    node_bound e (dom M ∪ list_to_set (hupdated ops)) + 1 < l_max L ->
    hspec_run vs (M, ks) ops = Some r ->
    wpx L (hapi_run dbg TO NO m hs ops) (fun '(xs, m', hs') => xs = fst r /\
      exists S' D' b' loc', b <= b' /\ minv m' S' D' (fst (snd r)) b' loc' /\ handles m' D' loc' hs' (snd (snd r))).
  Proof.
    intros Hst. induction ops as [|o ops IH]; intros m hs S D M ks b loc A r Hi Hh Hv HB HSA HA HA4 Hroom Hr.
    - simpl in Hr. injection Hr as <-. apply wpx_ret. split; [reflexivity|]. exists S, D, b, loc. split; [reflexivity|]. auto.
    - apply Forall_cons_1 in Hv as [Hv Hvs]. cbn [hspec_run] in Hr.
      destruct (hspec_step vs (M, ks) o) as [[x [M1 ks1]]|] eqn:Eo; [|discriminate].
      destruct (hspec_run vs (M1, ks1) ops) as [[xs s']|] eqn:Er; [|discriminate]. injection Hr as <-.
      cbn [hapi_run]. apply wpx_bind.
      (* the rest of the history *)
      assert (Hrest : forall m1 hs1 S1 D1 b1 loc1, b <= b1 -> minv m1 S1 D1 M1 b1 loc1 -> handles m1 D1 loc1 hs1 ks1 ->
         S1 ⊆ A -> (B = true -> Forall (fun k => k <> [0]) (hupdated ops)) -> alphabet (hupdated ops) ⊆ A ->
         node_bound e (dom M1 ∪ list_to_set (hupdated ops)) + 1 < l_max L ->
         wpx L (let* r := hapi_run dbg TO NO m1 hs1 ops in let '(xs, m, hs) := r in Ret (x :: xs, m, hs))
           (fun '(xs', m', hs') => xs' = fst (x :: xs, s') /\ exists S' D' b' loc', b <= b' /\
              minv m' S' D' (fst (snd (x :: xs, s'))) b' loc' /\ handles m' D' loc' hs' (snd (snd (x :: xs, s'))))).
      { intros m1 hs1 S1 D1 b1 loc1 Hb1 Hi1 Hh1 HS1 HB1 HA1 Hroom1. apply wpx_bind. eapply wpx_mono.
        { apply (IH m1 hs1 S1 D1 M1 ks1 b1 loc1 A (xs, s')); eassumption. }
        intros [[ys m2] hs2] (-> & S2 & D2 & b2 & loc2 & Hb2 & Hi2 & Hh2). apply wpx_ret. split; [reflexivity|].
        exists S2, D2, b2, loc2. split; [lia|]. auto. }
      destruct o as [k|k|i|i w]; unfold hapi_step.
      + destruct Hv as [Hk Hsm]. change (hupdated (HUpdate k :: ops)) with (k :: hupdated ops) in *.
        assert (HkA : (list_to_set k : gset N) ⊆ A /\ alphabet (hupdated ops) ⊆ A).
        { unfold alphabet in *. simpl in HA. rewrite list_to_set_app_L in HA. set_solver. }
        destruct HkA as [HkA HAo].
        apply wpx_bind. eapply wpx_mono.
        { apply (update_alpha m S D M b loc k A Hi Hk Hsm); auto.
          - intros Hb. specialize (HB Hb). apply Forall_cons_1 in HB as [H _]. exact H.
          - revert Hroom. apply nb_room. clear. set_solver. }
        intros [r m1] (p & S1 & D1 & b1 & loc1 & -> & Hb1 & HS1 & Hst1 & Hi1 & Hp1). apply wpx_ret.
        simpl in Eo. injection Eo as <- <- <-.
        apply (Hrest m1 (hs ++ [Some p]) S1 D1 b1 loc1); auto.
        * assert (Ez : default (zeros vs) (M !! k) = default (replicate vs 0) (M !! k)).
          { unfold zeros. f_equal. clear. induction vs as [|n IH]; simpl; congruence. }
          rewrite Ez in Hi1. exact Hi1.
        * apply Forall2_app; [|constructor; [exact Hp1|constructor]].
          apply (handles_mono m D loc); [|exact Hh]. exact (kept_mpt TO NO e stable npt _ _ _ _ _ _ Hst (proj1 Hst1)).
        * intros Hb. specialize (HB Hb). apply Forall_cons_1 in HB as [_ H]. exact H.
        * revert Hroom. apply nb_room. rewrite dom_insert_L, list_to_set_cons. clear. set_solver.
      + destruct Hv as (Hk & Hlen). change (hupdated (HFind k :: ops)) with (hupdated ops) in *.
        destruct (valid_okey k Hk) as [Hok Hb].
        apply wpx_bind. eapply wpx_mono.
        { apply wp_wpx. apply (minv_find dbg TO NO L mf e B stable srep sfresh npt HS He m S D M b loc k Hi Hok Hb Hlen). }
        intros [p|] Hres.
        * destruct Hres as [[v Hv] Hp]. simpl in Eo. rewrite Hv in Eo. injection Eo as <- <- <-. apply wpx_ret.
          apply (Hrest m (hs ++ [Some p]) S D b loc); auto; try lia.
          apply Forall2_app; [exact Hh|]. constructor; [exact Hp|constructor].
        * simpl in Eo. rewrite Hres in Eo. injection Eo as <- <- <-. apply wpx_ret.
          apply (Hrest m (hs ++ [None]) S D b loc); auto; try lia.
          apply Forall2_app; [exact Hh|]. constructor; [exact I|constructor].
      + change (hupdated (HRead i :: ops)) with (hupdated ops) in *. simpl in Eo.
        destruct (ks !! i) as [[k|]|] eqn:Ek; try discriminate.
        destruct (Forall2_lookup_r _ _ _ i _ Hh Ek) as (o & Eh & Ho). destruct o as [p|]; [|destruct Ho].
        destruct (M !! k) as [v|] eqn:EM; [|discriminate]. injection Eo as <- <- <-.
        rewrite Eh. destruct (minv_read TO NO L mf e B stable srep sfresh npt HS m S D M b loc k p Hi Ho) as (v' & Hv1 & Erd).
        rewrite EM in Hv1. injection Hv1 as <-. unfold map_read. rewrite Erd, bind_ret. apply wpx_ret.
        apply (Hrest m hs S D b loc); auto; lia.
      + change (hupdated (HWrite i w :: ops)) with (hupdated ops) in *. simpl in Eo.
        destruct (ks !! i) as [[k|]|] eqn:Ek; try discriminate.
        destruct (Forall2_lookup_r _ _ _ i _ Hh Ek) as (o & Eh & Ho). destruct o as [p|]; [|destruct Ho].
        destruct (decide (length w = vs)) as [Hw|]; [|discriminate]. injection Eo as <- <- <-.
        rewrite Eh. destruct (minv_write TO NO L mf e B stable srep sfresh npt HS m S D M b loc k p w Hi Ho Hw)
          as (h & D2 & Ewr & Hi2 & Hpt2 & _).
        unfold map_write. rewrite Ewr, !bind_ret. apply wpx_ret.
        destruct (minv_read TO NO L mf e B stable srep sfresh npt HS m S D M b loc k p Hi Ho) as (v' & Hv1 & _).
        apply (Hrest _ hs S D2 b loc); auto; try lia.
        * apply (handles_mono m D loc); [exact Hpt2|exact Hh].
        * rewrite dom_insert_lookup_L by eauto. exact Hroom.
  Qed.
End hist.
