(** Histories on up to 255 distinct bytes with the exception of update caught: at most one call throws,
    and it leaves the dictionary as it was. *)
From Verif.Model Require Export ApiTry.
From Verif.Proofs Require Export ReachP.
Local Open Scope N_scope.

Lemma shows_cons vs th d o ops seen d' x n d1 : spec_step vs d o = ((x, n), d1) -> shows vs th d1 ops seen d' ->
  shows vs th d (o :: ops) ((Did x, n) :: seen) d'.
Proof.
  intros E [(-> & -> & ->)|(-> & ops1 & k & w & ops2 & d2 & -> & E2 & Hn & -> & ->)].
  - left. split; [reflexivity|]. cbn [spec_run]. rewrite E. destruct (spec_run vs d1 ops). auto.
  - right. split; [reflexivity|]. exists (o :: ops1), k, w, ops2, d2. split; [reflexivity|].
    cbn [spec_run]. rewrite E. destruct (spec_run vs d1 ops1). auto.
Qed.

Lemma dict_insert_le (M : dict) k v : (size (<[k := v]> M) <= S (size M))%nat.
Proof. destruct (M !! k) eqn:E; [rewrite map_size_insert_Some by eauto|rewrite map_size_insert_None by exact E]; lia. Qed.

(** An outcome that may also be an exception if [T]. *)
Definition wpt {A} (L T : Prop) (m : outcome A) (Q : A -> Prop) : Prop :=
  match m with Ret a => Q a | AssertFail => L | Throw _ => T | _ => False end.
Lemma wpt_bind {A B} L T (m : outcome A) (f : A -> outcome B) Q :
  wpt L T m (fun a => wpt L T (f a) Q) -> wpt L T (bind m f) Q.
Proof. destruct m; simpl; auto. Qed.
Lemma wpt_mono {A} L (T T' : Prop) (m : outcome A) (P Q : A -> Prop) :
  wpt L T m P -> (T -> T') -> (forall a, P a -> Q a) -> wpt L T' m Q.
Proof. destruct m; simpl; auto. Qed.
Lemma wpx_wpt {A} L T (m : outcome A) Q : wpx L m Q -> wpt L T m Q.
Proof. destruct m; simpl; tauto. Qed.
Lemma wpt_wpx {A} L T (m : outcome A) Q : ~ T -> wpt L T m Q -> wpx L m Q.
Proof. destruct m; simpl; tauto. Qed.

Section try.
  Context (dbg : bool) (TO : trie_ops) (NO : nlm_ops) (L : lims) (mf e : N) (B : bool) {Q : Type} (stable : nT NO -> N -> Q -> Prop).
  Context (srep : N -> tT TO -> nT NO -> locmap -> labmap -> Prop) (sfresh : N -> tT TO -> nT NO -> Prop).
  Context (npt : nT NO -> N -> ptr -> Prop).
  Hypothesis HS : store_ok TO NO L mf (8 + e) B stable srep sfresh npt.
  Hypothesis He : e <= 39.
  Hypothesis Hmf : 1 <= mf <= 99.
  Notation vs := (n_vs NO).
  Notation map_st := (map_st TO NO).
  Notation mpt := (mpt TO NO e npt).
  Notation kept := (kept TO NO e stable).
  Notation minv := (minv TO NO e srep sfresh).

  (** Within 255 bytes, or with an assertion that stops the 256th. *)
  Definition covered (A : gset N) : Prop := (size A <= 255)%nat \/ (dbg = true /\ L).
  (** An update. *)
  Lemma update_any m S D M b loc k (A : gset N) : minv m S D M b loc -> valid_key k -> small vs k ->
    (B = true -> k <> [0]) -> node_bound e (dom M) + 1 < l_max L ->
    S ⊆ A -> list_to_set k ⊆ A -> covered A ->
    wpx L (map_update dbg TO NO m k) (fun '(r, m') => exists S' D' b' loc', b <= b' /\ S ⊆ S' /\ S' ⊆ A /\
      kept m D loc m' D' loc' /\
      match r with
      | UPtr (Some p) => minv m' S' D' (<[k := default (replicate vs 0) (M !! k)]> M) b' loc' /\ mpt m' D' loc' k p
      | UPtr None => False
      | UThrow _ => D' = D /\ M !! k = None /\ minv m' S' D M b' loc' /\ size S = 254%nat /\ size S' = 255%nat
      end).
  Proof.
    intros Hi Hk Hsm HB Hroom HSA HkA HA. destruct (valid_okey k Hk) as [Hok Hb].
    assert (HSs : (size S <= size A)%nat) by (apply subseteq_size, HSA).
    eapply wpx_mono.
    { eapply (minv_update_gen dbg TO NO L mf e B stable srep sfresh npt HS He m S D M b loc k); try eassumption.
      destruct HA as [HA|HA]; [|auto].
      destruct (decide (size S < 255)%nat) as [|Hge]; [left; assumption|right; left].
      assert (S = A) as ->. { apply set_eq. intros c. split; [apply HSA|]. intros Hc. destruct (decide (c ∈ S)) as [|Hn]; [assumption|].
        exfalso. assert (Hs : S ⊂ A) by set_solver. apply subset_size in Hs. lia. }
      intros c Hc. apply HkA, elem_of_list_to_set, Hc. }
    intros [r m'] (S' & D' & b' & loc' & H1 & H2 & H3 & H5 & H6).
    assert (HSA' : S' ⊆ A). { etransitivity; [exact H3|]. apply union_subseteq. auto. }
    exists S', D', b', loc'. split; [exact H1|]. split; [exact H2|]. split; [exact HSA'|].
    split; [exact H5|]. destruct r as [[p|]|x].
    - destruct H6 as (H6 & H7 & _). split; [|exact H7]. rewrite <- zeros_replicate. fold (zeros vs).
      destruct (M !! k) as [v|] eqn:EM; cbn [default from_option]; [|exact H6].
      unfold id. rewrite insert_id by exact EM. exact H6.
    - destruct H6.
    - destruct H6 as (_ & H6). exact H6.
  Qed.

  Lemma update_255 m S D M b loc k (A : gset N) : minv m S D M b loc -> valid_key k -> small vs k ->
    (B = true -> k <> [0]) -> node_bound e (dom M) + 1 < l_max L ->
    S ⊆ A -> list_to_set k ⊆ A -> (size A <= 255)%nat ->
    wpx L (map_update dbg TO NO m k) (fun '(r, m') => exists S' D' b' loc', b <= b' /\ S ⊆ S' /\ S' ⊆ A /\
      kept m D loc m' D' loc' /\
      match r with
      | UPtr (Some p) => minv m' S' D' (<[k := default (replicate vs 0) (M !! k)]> M) b' loc' /\ mpt m' D' loc' k p
      | UPtr None => False
      | UThrow _ => D' = D /\ M !! k = None /\ minv m' S' D M b' loc' /\ size S = 254%nat /\ size S' = 255%nat
      end).
  Proof. intros Hi Hk Hsm HB Hroom HSA HkA HA. apply (update_any m S D M b loc k A); try assumption. left. exact HA. Qed.

  Lemma try_step_ok m S D M b loc (A : gset N) o : minv m S D M b loc ->
    valid_op vs o -> (B = true -> Forall (fun k => k <> [0]) (updated [o])) ->
    S ⊆ A -> alphabet (updated [o]) ⊆ A -> covered A ->
    node_bound e (dom M ∪ list_to_set (updated [o])) + 1 < l_max L ->
    wpx L (try_step dbg TO NO m o) (fun '((x, n), m') => exists S' D' M' b' loc',
      minv m' S' D' M' b' loc' /\ S ⊆ S' /\ S' ⊆ A /\ dom M' ⊆ dom M ∪ list_to_set (updated [o]) /\
      ((exists y, x = Did y /\ spec_step vs M o = ((y, n), M')) \/
       (x = Caught /\ n = N.of_nat (size M) /\ M' = M /\ size S = 254%nat /\ size S' = 255%nat /\
        exists k w, o = Update k w /\ M !! k = None))).
  Proof.
    intros Hi Hv HB HSA HA HA5 Hroom. destruct o as [k w|k].
    - destruct Hv as (Hk & Hsm & Hw). change (updated [Update k w]) with [k] in *.
      assert (HkA : (list_to_set k : gset N) ⊆ A). { unfold alphabet in HA. simpl in HA. rewrite app_nil_r in HA. set_solver. }
      unfold try_step. apply wpx_bind. eapply wpx_mono.
      { apply (update_any m S D M b loc k A Hi Hk Hsm); auto.
        - intros Hb. specialize (HB Hb). apply Forall_cons_1 in HB as [H _]. exact H.
        - revert Hroom. apply (nb_room L e). clear. set_solver. }
      intros [r m1] (S1 & D1 & b1 & loc1 & Hb1 & HSS & HS1 & _ & Hr). destruct r as [[p|]|x]; [|destruct Hr|].
      + destruct Hr as [Hi1 Hp1].
        destruct (minv_read TO NO L mf e B stable srep sfresh npt HS m1 S1 D1 _ b1 loc1 k p Hi1 Hp1) as (v & Hv1 & Er).
        rewrite lookup_insert in Hv1. injection Hv1 as <-. unfold map_read. rewrite Er, bind_ret.
        set (old := default (replicate vs 0) (M !! k)) in *.
        assert (Hm2 : exists m2 D2, match w with None => Ret m1 | Some w => map_write TO NO m1 p w end = Ret m2 /\
           minv m2 S1 D2 (<[k := default old w]> M) b1 loc1).
        { destruct w as [w|].
          - destruct (minv_write TO NO L mf e B stable srep sfresh npt HS m1 S1 D1 _ b1 loc1 k p w Hi1 Hp1 Hw)
              as (h & D2 & Eh & Hi2 & _).
            unfold map_write. rewrite Eh, bind_ret. eexists _, D2. split; [reflexivity|].
            rewrite insert_insert in Hi2. exact Hi2.
          - exists m1, D1. split; [reflexivity|exact Hi1]. }
        destruct Hm2 as (m2 & D2 & -> & Hi2). rewrite bind_ret. apply wpx_ret.
        assert (Hu2 : dom (<[k := default old w]> M) ⊆ dom M ∪ list_to_set [k]).
        { rewrite dom_insert_L. clear. set_solver. }
        exists S1, D2, (<[k := default old w]> M), b1, loc1. split; [exact Hi2|]. split; [exact HSS|]. split; [exact HS1|].
        split; [exact Hu2|]. left. exists (Saw old). split; [reflexivity|].
        unfold spec_step. fold old. f_equal. f_equal. symmetry.
        apply (minv_size_small TO NO L mf e B stable srep sfresh npt HS He Hmf m2 _ _ _ _ _ Hi2).
        revert Hroom. apply (nb_room L e), Hu2.
      + destruct Hr as (-> & Hn & Hi1 & H4 & H5). apply wpx_ret.
        assert (Hu2 : dom M ⊆ dom M ∪ list_to_set [k]) by (clear; set_solver).
        exists S1, D, M, b1, loc1. split; [exact Hi1|]. split; [exact HSS|]. split; [exact HS1|]. split; [exact Hu2|].
        right. split; [reflexivity|]. split.
        { apply (minv_size_small TO NO L mf e B stable srep sfresh npt HS He Hmf m1 _ _ _ _ _ Hi1).
          revert Hroom. apply (nb_room L e), Hu2. }
        split; [reflexivity|]. split; [exact H4|]. split; [exact H5|]. eauto.
    - destruct Hv as (Hk & Hlen). change (updated [Find k]) with (@nil (list N)) in *.
      assert (Hu : dom M ⊆ dom M ∪ list_to_set []) by (clear; set_solver).
      destruct (valid_okey k Hk) as [Hok Hb]. unfold try_step. apply wpx_bind. eapply wpx_mono.
      { apply wp_wpx. apply (minv_find dbg TO NO L mf e B stable srep sfresh npt HS He m S D M b loc k Hi Hok Hb Hlen). }
      assert (Esz : m_size _ _ m = N.of_nat (size M)).
      { apply (minv_size_small TO NO L mf e B stable srep sfresh npt HS He Hmf m _ _ _ _ _ Hi).
        revert Hroom. apply (nb_room L e), Hu. }
      intros [p|] Hr.
      + destruct Hr as [_ Hp].
        destruct (minv_read TO NO L mf e B stable srep sfresh npt HS m S D M b loc k p Hi Hp) as (v & Hv1 & Er).
        unfold map_read. rewrite Er, bind_ret. apply wpx_ret. exists S, D, M, b, loc. split; [exact Hi|].
        split; [reflexivity|]. split; [exact HSA|]. split; [exact Hu|]. left. eexists. split; [reflexivity|].
        unfold spec_step. rewrite Hv1, Esz. reflexivity.
      + apply wpx_ret. exists S, D, M, b, loc. split; [exact Hi|].
        split; [reflexivity|]. split; [exact HSA|]. split; [exact Hu|]. left. eexists. split; [reflexivity|].
        unfold spec_step. rewrite Hr, Esz. reflexivity.
  Qed.

  Theorem try_run_ok ops : forall m S D M b loc (A : gset N), minv m S D M b loc ->
    Forall (valid_op vs) ops -> (B = true -> Forall (fun k => k <> [0]) (updated ops)) ->
    S ⊆ A -> alphabet (updated ops) ⊆ A -> covered A ->
    node_bound e (dom M ∪ list_to_set (updated ops)) + 1 < l_max L ->
    wpx L (try_run dbg TO NO m ops) (fun '(xs, m') => exists th S' D' M' b' loc',
      shows vs th M ops xs M' /\ (th = true -> (size S < 255)%nat /\ (255 <= size S')%nat) /\
      minv m' S' D' M' b' loc' /\ S ⊆ S' /\ S' ⊆ A /\ dom M' ⊆ dom M ∪ list_to_set (updated ops)).
  Proof.
    induction ops as [|o ops IH]; intros m S D M b loc A Hi Hv HB HSA HA HA5 Hroom.
    - apply wpx_ret. exists false, S, D, M, b, loc. split; [left; auto|]. split; [discriminate|]. split; [exact Hi|].
      split; [reflexivity|]. split; [exact HSA|].
      clear. set_solver.
    - apply Forall_cons_1 in Hv as [Hv Hvs].
      assert (Eu : updated (o :: ops) = updated [o] ++ updated ops) by (apply (updated_app [o] ops)).
      rewrite Eu in *. destruct (alphabet_app (updated [o]) (updated ops)) as [Ha1 Ha2].
      rewrite list_to_set_app_L in *.
      cbn [try_run]. apply wpx_bind. eapply wpx_mono.
      { apply (try_step_ok m S D M b loc A o Hi Hv); auto.
        - intros Hb. specialize (HB Hb). apply Forall_app in HB as [H _]. exact H.
        - etransitivity; eassumption.
        - revert Hroom. apply (nb_room L e). clear. set_solver. }
      intros [[x n] m1] (S1 & D1 & M1 & b1 & loc1 & Hi1 & HS1 & HA1 & Hu1 & Hx).
      apply wpx_bind. eapply wpx_mono.
      { apply (IH m1 S1 D1 M1 b1 loc1 A Hi1 Hvs); auto.
        - intros Hb. specialize (HB Hb). apply Forall_app in HB as [_ H]. exact H.
        - etransitivity; eassumption.
        - revert Hroom. apply (nb_room L e). clear -Hu1. set_solver. }
      intros [xs m2] (th & S2 & D2 & M2 & b2 & loc2 & Hsh & Hth & Hi2 & HS2 & HA2 & Hu2). apply wpx_ret.
      assert (Hsz1 : (size S <= size S1)%nat) by (apply subseteq_size, HS1).
      assert (Hu02 : dom M2 ⊆ dom M ∪ (list_to_set (updated [o]) ∪ list_to_set (updated ops))) by (clear -Hu1 Hu2; set_solver).
      assert (HS02 : S ⊆ S2) by (etransitivity; eassumption).
      destruct Hx as [(y & -> & E)|(-> & -> & -> & H4 & H5 & k & w & -> & Hn)].
      + exists th, S2, D2, M2, b2, loc2. split; [exact (shows_cons _ _ _ _ _ _ _ _ _ _ E Hsh)|].
        split; [intros Ht; specialize (Hth Ht); lia|]. auto.
      + destruct th; [specialize (Hth eq_refl); lia|].
        destruct Hsh as [(_ & -> & ->)|[? _]]; [|discriminate].
        exists true, S2, D2, (snd (spec_run vs M ops)), b2, loc2. split.
        { right. split; [reflexivity|]. exists [], k, w, ops, M. auto. }
        split.
        { intros _. split; [lia|]. apply subseteq_size in HS2. lia. }
        auto.
  Qed.

  Notation handles := (handles TO NO e npt).
  (** A history with kept pointers ends with the exception, or shows what the dictionary shows. *)
  Theorem htry_run_ok ops : pts_stable stable npt -> forall m hs S D M ks b loc (A : gset N) r, minv m S D M b loc ->
    handles m D loc hs ks ->
    Forall (hvalid_op vs) ops -> (B = true -> Forall (fun k => k <> [0]) (hupdated ops)) ->
    S ⊆ A -> alphabet (hupdated ops) ⊆ A -> (size A <= 255)%nat ->
    node_bound e (dom M ∪ list_to_set (hupdated ops)) + 1 < l_max L ->
    hspec_run vs (M, ks) ops = Some r ->
    wpt L (size S < 255)%nat (hapi_run dbg TO NO m hs ops) (fun '(xs, m', hs') => xs = fst r /\
      exists S' D' b' loc', minv m' S' D' (fst (snd r)) b' loc' /\ handles m' D' loc' hs' (snd (snd r)) /\
        S' ⊆ A /\ dom (fst (snd r)) ⊆ dom M ∪ list_to_set (hupdated ops)).
  Proof.
    intros Hst. induction ops as [|o ops IH]; intros m hs S D M ks b loc A r Hi Hh Hv HB HSA HA HA5 Hroom Hr.
    - simpl in Hr. injection Hr as <-. split; [reflexivity|]. exists S, D, b, loc. split; [exact Hi|]. split; [exact Hh|].
      split; [exact HSA|]. clear. set_solver.
    - apply Forall_cons_1 in Hv as [Hv Hvs]. cbn [hspec_run] in Hr.
      destruct (hspec_step vs (M, ks) o) as [[x [M1 ks1]]|] eqn:Eo; [|discriminate].
      destruct (hspec_run vs (M1, ks1) ops) as [[xs s']|] eqn:Er; [|discriminate]. injection Hr as <-.
      cbn [hapi_run]. apply wpt_bind.
      assert (Eu : hupdated (o :: ops) = hupdated [o] ++ hupdated ops) by (apply (flat_map_app _ [o] ops)).
      rewrite Eu, list_to_set_app_L in *. destruct (alphabet_app (hupdated [o]) (hupdated ops)) as [Ha1 Ha2].
      assert (HB1 : B = true -> Forall (fun k => k <> [0]) (hupdated [o])).
      { intros Hb. specialize (HB Hb). apply Forall_app in HB as [H _]. exact H. }
      assert (HB2 : B = true -> Forall (fun k => k <> [0]) (hupdated ops)).
      { intros Hb. specialize (HB Hb). apply Forall_app in HB as [_ H]. exact H. }
      (* the rest of the history *)
      assert (Hrest : forall m1 hs1 S1 D1 b1 loc1, minv m1 S1 D1 M1 b1 loc1 -> handles m1 D1 loc1 hs1 ks1 ->
         S ⊆ S1 -> S1 ⊆ A -> dom M1 ⊆ dom M ∪ list_to_set (hupdated [o]) ->
         wpt L (size S < 255)%nat (let* r := hapi_run dbg TO NO m1 hs1 ops in let '(xs, m, hs) := r in Ret (x :: xs, m, hs))
           (fun '(xs', m', hs') => xs' = fst (x :: xs, s') /\ exists S' D' b' loc',
              minv m' S' D' (fst (snd (x :: xs, s'))) b' loc' /\ handles m' D' loc' hs' (snd (snd (x :: xs, s'))) /\
              S' ⊆ A /\ dom (fst (snd (x :: xs, s'))) ⊆ dom M ∪ (list_to_set (hupdated [o]) ∪ list_to_set (hupdated ops)))).
      { intros m1 hs1 S1 D1 b1 loc1 Hi1 Hh1 HSS1 HS1 Hu1. apply wpt_bind. eapply wpt_mono.
        { apply (IH m1 hs1 S1 D1 M1 ks1 b1 loc1 A (xs, s')); try assumption.
          - etransitivity; eassumption.
          - revert Hroom. apply (nb_room L e). clear -Hu1. set_solver. }
        { intros H. apply subseteq_size in HSS1. lia. }
        intros [[ys m2] hs2] (-> & S2 & D2 & b2 & loc2 & Hi2 & Hh2 & HS2 & Hu2). split; [reflexivity|].
        exists S2, D2, b2, loc2. split; [exact Hi2|]. split; [exact Hh2|]. split; [exact HS2|].
        cbn [fst snd] in *. clear -Hu1 Hu2. set_solver. }
      destruct o as [k|k|i|i w]; unfold hapi_step.
      + destruct Hv as [Hk Hsm]. change (hupdated [HUpdate k]) with [k] in *.
        assert (HkA : (list_to_set k : gset N) ⊆ A).
        { etransitivity; [|etransitivity; [exact Ha1|exact HA]]. unfold alphabet. simpl concat. rewrite app_nil_r. set_solver. }
        apply wpt_bind. eapply wpt_mono; [apply (wpx_wpt _ (size S < 255)%nat)| |].
        { apply (update_255 m S D M b loc k A Hi Hk Hsm); auto.
          - intros Hb. specialize (HB1 Hb). apply Forall_cons_1 in HB1 as [H _]. exact H.
          - revert Hroom. apply (nb_room L e). clear. set_solver. }
        { auto. }
        intros [r m1] (S1 & D1 & b1 & loc1 & Hb1 & HSS1 & HS1 & Hst1 & Hr). destruct r as [[p|]|ex]; [|destruct Hr|].
        * destruct Hr as [Hi1 Hp1]. simpl in Eo. injection Eo as <- <- <-.
          apply (Hrest m1 (hs ++ [Some p]) S1 D1 b1 loc1); auto.
          -- apply Forall2_app; [|constructor; [exact Hp1|constructor]].
             apply (handles_mono TO NO e npt m D loc); [|exact Hh]. exact (kept_mpt TO NO e stable npt _ _ _ _ _ _ Hst Hst1).
          -- rewrite dom_insert_L. clear. set_solver.
        * destruct Hr as (_ & _ & _ & H4 & _). simpl. lia.
      + destruct Hv as (Hk & Hlen). change (hupdated [HFind k]) with (@nil (list N)) in *.
        assert (Hu : dom M ⊆ dom M ∪ list_to_set []) by (clear; set_solver).
        destruct (valid_okey k Hk) as [Hok Hb].
        apply wpt_bind. eapply wpt_mono; [apply (wpx_wpt _ (size S < 255)%nat)| |].
        { apply wp_wpx. apply (minv_find dbg TO NO L mf e B stable srep sfresh npt HS He m S D M b loc k Hi Hok Hb Hlen). }
        { auto. }
        intros [p|] Hres.
        * destruct Hres as [[v Hv] Hp]. simpl in Eo. rewrite Hv in Eo. injection Eo as <- <- <-.
          apply (Hrest m (hs ++ [Some p]) S D b loc); auto.
          apply Forall2_app; [exact Hh|]. constructor; [exact Hp|constructor].
        * simpl in Eo. rewrite Hres in Eo. injection Eo as <- <- <-.
          apply (Hrest m (hs ++ [None]) S D b loc); auto.
          apply Forall2_app; [exact Hh|]. constructor; [exact I|constructor].
      + change (hupdated [HRead i]) with (@nil (list N)) in *.
        assert (Hu : dom M ⊆ dom M ∪ list_to_set []) by (clear; set_solver).
        simpl in Eo.
        destruct (ks !! i) as [[k|]|] eqn:Ek; try discriminate.
        destruct (Forall2_lookup_r _ _ _ i _ Hh Ek) as (o & Eh & Ho). destruct o as [p|]; [|destruct Ho].
        destruct (M !! k) as [v|] eqn:EM; [|discriminate]. injection Eo as <- <- <-.
        rewrite Eh. destruct (minv_read TO NO L mf e B stable srep sfresh npt HS m S D M b loc k p Hi Ho) as (v' & Hv1 & Erd).
        rewrite EM in Hv1. injection Hv1 as <-. unfold map_read. rewrite Erd, bind_ret.
        apply (Hrest m hs S D b loc); auto.
      + change (hupdated [HWrite i w]) with (@nil (list N)) in *.
        assert (Hu : dom M ⊆ dom M ∪ list_to_set []) by (clear; set_solver).
        simpl in Eo.
        destruct (ks !! i) as [[k|]|] eqn:Ek; try discriminate.
        destruct (Forall2_lookup_r _ _ _ i _ Hh Ek) as (o & Eh & Ho). destruct o as [p|]; [|destruct Ho].
        destruct (decide (length w = vs)) as [Hw|]; [|discriminate]. injection Eo as <- <- <-.
        rewrite Eh. destruct (minv_write TO NO L mf e B stable srep sfresh npt HS m S D M b loc k p w Hi Ho Hw)
          as (h & D2 & Ewr & Hi2 & Hpt2 & _).
        unfold map_write. rewrite Ewr, !bind_ret.
        destruct (minv_read TO NO L mf e B stable srep sfresh npt HS m S D M b loc k p Hi Ho) as (v' & Hv1 & _).
        apply (Hrest _ hs S D2 b loc); auto; [|rewrite dom_insert_lookup_L by eauto; exact Hu].
        apply (handles_mono TO NO e npt m D loc); [exact Hpt2|exact Hh].
  Qed.
End try.

Section reach.
  Context (dbg : bool) (vs : nat) (a : alias) (cb e : N) (ks : list (list N)).
  Hypothesis Hsup : supported_255 vs cb e ks.

  Lemma sup255 : e <= 39 /\ N.max 16 cb <= bits_limit (8 + e) /\ nodes_for e ks + 1 < node_limit 90 (8 + e) /\ N.max 16 cb <= 56.
  Proof.
    destruct Hsup as (_ & H1 & H2 & _). assert (He : e <= 39) by lia. split; [exact He|].
    assert (Eb : bits_limit (8 + e) = 54 - e + 1) by (unfold bits_limit; lia).
    split; [lia|]. split; [|lia]. unfold node_limit. rewrite Eb.
    eapply N.lt_le_trans; [exact H2|]. apply max_size_half. lia.
  Qed.
  Lemma reach_pk255 : store_ok (a_trie dbg a) (a_nlm vs a) (alias_lim a (N.max 16 cb) (nodes_for e ks + 2)) 90 (8 + e)
    (traps dbg a) (tok (a_fk a) (a_frz a) (pk_npt _ _ _ _ _ _ (alias_at dbg vs a cb e ks))) (pk_srep _ _ _ _ _ _ (alias_at dbg vs a cb e ks))
    (pk_sfresh _ _ _ _ _ _ (alias_at dbg vs a cb e ks)) (pk_npt _ _ _ _ _ _ (alias_at dbg vs a cb e ks)).
  Proof.
    destruct sup255 as (He & Hcb & Hroom & _).
    apply (pk_ok _ _ _ _ _ _ (alias_at dbg vs a cb e ks)); [apply Hsup|lia|lia].
  Qed.
  Lemma new_inv255 : exists m0, a_new dbg vs a cb (2 ^ e) = Ret m0 /\
    alias_inv dbg vs a cb e ks m0 {[ 0 ]} ∅ ∅ (N.max 16 cb) ∅.
  Proof.
    destruct sup255 as (He & Hcb & _ & _).
    destruct (map_new_ok _ _ _ _ _ _ _ _ _ _ reach_pk255 He cb Hcb) as (m & E & Hf); [cbn; lia|].
    exists m. split; [exact E|]. apply mfresh_minv, Hf.
  Qed.
  Lemma try_total ops rest : ks = updated ops ++ rest -> Forall (valid_op vs) ops -> no_trap dbg a (updated ops) ->
    exists m0, a_new dbg vs a cb (2 ^ e) = Ret m0 /\
      yields a cb e ks (a_try_run dbg vs a m0 ops) (fun '(xs, m) => exists th S D M b loc, shows vs th ∅ ops xs M /\
        (th = true -> size (alphabet ks) = 255%nat) /\
        alias_inv dbg vs a cb e ks m S D M b loc /\ S ⊆ alphabet (updated ops) /\ dom M ⊆ list_to_set (updated ops)).
  Proof.
    intros Eks Hv Hnt. destruct new_inv255 as (m0 & E0 & Hi). exists m0. split; [exact E0|].
    destruct sup255 as (He & Hcb & Hroom & Hcb2). destruct (alphabet_app (updated ops) rest) as [Ha _]. rewrite <- Eks in Ha.
    assert (Ht : nodes_for e (updated ops) <= nodes_for e ks) by (rewrite Eks; apply nodes_for_app).
    apply subseteq_size in Ha as Ha'. destruct Hsup as (_ & _ & _ & HA).
    eapply yields_mono.
    { apply wpx_yields; [exact Hcb2|].
      apply (try_run_ok dbg _ _ _ 90 e _ _ _ _ _ reach_pk255 He mf90 ops m0 {[0]} ∅ ∅ (N.max 16 cb) ∅ (alphabet (updated ops)) Hi).
      - apply valid_op_vs, Hv.
      - apply no_trap_forall, Hnt.
      - unfold alphabet. set_solver.
      - reflexivity.
      - left; lia.
      - cbn [alias_lim l_max]. rewrite dom_empty_L, union_empty_l_L. unfold nodes_for at 1 in Ht. lia. }
    rewrite a_vs. intros [xs m] (th & S & D & M & b & loc & Hsh & Hth & Hi' & _ & HSA & Hu).
    rewrite dom_empty_L, union_empty_l_L in Hu.
    exists th, S, D, M, b, loc. split; [exact Hsh|]. split; [|auto].
    intros Ht'. destruct (Hth Ht') as [_ H5]. apply subseteq_size in HSA. lia.
  Qed.
  Lemma try_reach_inv ops rest m : ks = updated ops ++ rest -> Forall (valid_op vs) ops -> no_trap dbg a (updated ops) ->
    try_reaches dbg vs a cb e ops m ->
    exists S D M b loc, alias_inv dbg vs a cb e ks m S D M b loc /\ S ⊆ alphabet (updated ops) /\
      dom M ⊆ list_to_set (updated ops).
  Proof.
    intros Eks Hv Hnt (m0 & xs & E0 & E). destruct (try_total ops rest Eks Hv Hnt) as (m0' & E0' & H).
    rewrite E0 in E0'. injection E0' as <-.
    destruct (yields_ret _ _ _ _ _ _ _ H E) as (th & S & D & M & b & loc & _ & _ & H1 & H2 & H3). exists S, D, M, b, loc. auto.
  Qed.
  Lemma inv_find255 m S D M b loc k : alias_inv dbg vs a cb e ks m S D M b loc -> valid_key k ->
    N.of_nat (length k) < 2 ^ 64 -> find_value dbg vs a m k = Ret (M !! k).
  Proof.
    intros Hi Hk Hlen. destruct (valid_okey k Hk) as [Hok Hb]. destruct sup255 as (He & _).
    pose proof (minv_find dbg _ _ _ 90 e _ _ _ _ _ reach_pk255 He m S D M b loc k Hi Hok Hb Hlen) as H.
    unfold find_value, a_find. destruct (map_find dbg _ _ m k) as [[p|]| | | |]; try contradiction; rewrite bind_ret.
    - destruct H as [_ H]. destruct (minv_read _ _ _ 90 e _ _ _ _ _ reach_pk255 m S D M b loc k p Hi H) as (v & Hv & E).
      unfold a_read, map_read. rewrite E, bind_ret, Hv. reflexivity.
    - rewrite H. reflexivity.
  Qed.
  Lemma inv_size255 m S D M b loc : alias_inv dbg vs a cb e ks m S D M b loc -> dom M ⊆ list_to_set ks -> a_size dbg vs a m = N.of_nat (size M).
  Proof.
    intros Hi Hu. destruct sup255 as (He & _). unfold a_size.
    apply (minv_size_small _ _ _ 90 e _ _ _ _ _ reach_pk255 He mf90 m _ _ _ _ _ Hi). cbn [alias_lim l_max].
    apply (nb_mono e) in Hu. unfold nodes_for. lia.
  Qed.

  (** The strong exception guarantee. *)
  Lemma throw_inv ops m k : ks = updated ops ++ [k] -> Forall (valid_op vs) ops -> no_trap dbg a ks ->
    try_reaches dbg vs a cb e ops m -> valid_key k -> small vs k ->
    forall x m', a_update dbg vs a m k = Ret (UThrow x, m') ->
    size (alphabet ks) = 255%nat /\ a_size dbg vs a m' = a_size dbg vs a m /\
    (forall k', valid_key k' -> N.of_nat (length k') < 2 ^ 64 -> find_value dbg vs a m' k' = find_value dbg vs a m k') /\
    find_value dbg vs a m k = Ret None /\
    yields a cb e ks (a_update dbg vs a m' k) (fun '(r, m'') => exists p, r = UPtr (Some p) /\
      a_read dbg vs a m'' p = Ret (replicate vs 0) /\ a_size dbg vs a m'' = a_size dbg vs a m + 1 /\
      find_value dbg vs a m'' k = Ret (Some (replicate vs 0)) /\
      (forall k', k' <> k -> valid_key k' -> N.of_nat (length k') < 2 ^ 64 ->
         find_value dbg vs a m'' k' = find_value dbg vs a m k')).
  Proof.
    intros Eks Hv Hnt Hr Hk Hsm x m' E. rewrite Eks in Hnt. destruct (no_trap_app _ _ _ _ Hnt) as [Hnt1 Hnt2].
    destruct (try_reach_inv ops [k] m Eks Hv Hnt1 Hr) as (S & D & M & b & loc & Hi & HSA & Hu).
    destruct sup255 as (He & Hcb & Hroom & Hcb2).
    destruct (alphabet_app (updated ops) [k]) as [Ha1 Ha2]. rewrite <- Eks in Ha1, Ha2.
    assert (Hks : dom M ⊆ list_to_set ks /\ dom M ∪ {[ k ]} ⊆ list_to_set ks).
    { rewrite Eks, list_to_set_app_L. clear -Hu. set_solver. }
    destruct Hks as [Hks Hks2]. pose proof (nb_mono e _ _ Hks) as Hle. change (node_bound e (list_to_set ks)) with (nodes_for e ks) in Hle.
    assert (HkA : (list_to_set k : gset N) ⊆ alphabet ks).
    { etransitivity; [|exact Ha2]. unfold alphabet. simpl concat. set_solver. }
    assert (HSA' : S ⊆ alphabet ks) by (etransitivity; eassumption).
    assert (Hsm' : small (n_vs (a_nlm vs a)) k) by (rewrite a_vs; exact Hsm).
    assert (HB : traps dbg a = true -> k <> [0]). { intros Htr ->. apply (Hnt2 Htr). left. reflexivity. }
    assert (HA : (size (alphabet ks) <= 255)%nat) by (destruct Hsup as (_ & _ & _ & H); exact H).
    pose proof (update_255 dbg _ _ _ 90 e _ _ _ _ _ reach_pk255 He mf90 m S D M b loc k (alphabet ks) Hi Hk Hsm' HB) as H.
    specialize (H ltac:(cbn [alias_lim l_max]; lia) HSA' HkA HA).
    unfold a_update in E. rewrite E in H. destruct H as (S1 & D1 & b1 & loc1 & _ & _ & HS1 & _ & -> & Hn & Hi1 & _ & H5).
    assert (Esz : a_size dbg vs a m = N.of_nat (size M)) by (apply (inv_size255 m S D M b loc Hi Hks)).
    split. { apply subseteq_size in HS1. lia. }
    split. { rewrite Esz. apply (inv_size255 m' S1 D M b1 loc1 Hi1 Hks). }
    split. { intros k' Hk' Hl'. rewrite (inv_find255 m S D M b loc k' Hi Hk' Hl'). apply (inv_find255 m' S1 D M b1 loc1 k' Hi1 Hk' Hl'). }
    assert (Hl : N.of_nat (length k) < 2 ^ 64) by (unfold small in Hsm; lia).
    split. { rewrite (inv_find255 m S D M b loc k Hi Hk Hl), Hn. reflexivity. }
    eapply yields_mono.
    { apply wpx_yields; [exact Hcb2|].
      apply (update_255 dbg _ _ _ 90 e _ _ _ _ _ reach_pk255 He mf90 m' S1 D M b1 loc1 k (alphabet ks) Hi1 Hk Hsm' HB);
        [cbn [alias_lim l_max]; lia|assumption..]. }
    rewrite a_vs. intros [r m2] (S2 & D2 & b2 & loc2 & _ & _ & HS2 & _ & H2). destruct r as [[p|]|y]; [|destruct H2|].
    - destruct H2 as [Hi2 Hp]. exists p. split; [reflexivity|]. rewrite Hn in Hi2. cbn [default from_option] in Hi2.
      destruct (minv_read _ _ _ 90 e _ _ _ _ _ reach_pk255 m2 _ _ _ _ _ k p Hi2 Hp) as (v & Hv2 & Er).
      rewrite lookup_insert in Hv2. injection Hv2 as <-. split; [exact Er|].
      split.
      { rewrite Esz. rewrite (inv_size255 m2 S2 D2 _ b2 loc2 Hi2).
        - rewrite map_size_insert_None by exact Hn. lia.
        - rewrite dom_insert_L. clear -Hks2. set_solver. }
      split. { rewrite (inv_find255 m2 _ _ _ _ _ k Hi2 Hk Hl), lookup_insert. reflexivity. }
      intros k' Hne Hk' Hl'. rewrite (inv_find255 m2 _ _ _ _ _ k' Hi2 Hk' Hl'), lookup_insert_ne by congruence.
      symmetry. apply (inv_find255 m S D M b loc k' Hi Hk' Hl').
    - destruct H2 as (_ & _ & _ & H2 & _). lia.
  Qed.

  (** Kept pointers. *)
  Lemma throw_handles ops1 k ops2 s1 m0 xs1 m1 ps x m2 r : stable_alias a = true ->
    ks = hupdated (ops1 ++ HUpdate k :: ops2) -> Forall (hvalid_op vs) (ops1 ++ HUpdate k :: ops2) -> no_trap dbg a ks ->
    a_new dbg vs a cb (2 ^ e) = Ret m0 -> a_hrun dbg vs a m0 ops1 = Ret (xs1, m1, ps) ->
    a_update dbg vs a m1 k = Ret (UThrow x, m2) ->
    hspec_run vs (∅, []) ops1 = Some s1 -> hspec_run vs (fst (snd s1), snd (snd s1) ++ [None]) ops2 = Some r ->
    xs1 = fst s1 /\
    yields a cb e ks (a_hcont dbg vs a m2 (ps ++ [None]) ops2) (fun '(xs2, _, _) => xs2 = fst r).
  Proof.
    intros Hst Eks Hv Hnt E0 E1 E2 Es1 Es2. destruct new_inv255 as (m0' & E0' & Hi0). rewrite E0 in E0'. injection E0' as <-.
    destruct sup255 as (He & Hcb & Hroom & Hcb2).
    assert (HA : (size (alphabet ks) <= 255)%nat) by (destruct Hsup as (_ & _ & _ & H); exact H).
    apply Forall_app in Hv as [Hv1 Hv2]. apply Forall_cons_1 in Hv2 as [[Hk Hsm] Hv2].
    assert (Eu : ks = hupdated ops1 ++ [k] ++ hupdated ops2). { rewrite Eks. unfold hupdated. rewrite flat_map_app. reflexivity. }
    rewrite Eu in Hnt. destruct (no_trap_app _ _ _ _ Hnt) as [Hnt1 Hnt2]. destruct (no_trap_app _ _ _ _ Hnt2) as [Hntk Hnt3].
    destruct (alphabet_app (hupdated ops1) ([k] ++ hupdated ops2)) as [Ha1 Ha2]. rewrite <- Eu in Ha1, Ha2.
    destruct (alphabet_app [k] (hupdated ops2)) as [Ha3 Ha4].
    assert (Hroom2 : forall K : gset (list N), K ⊆ list_to_set ks ->
      node_bound e K + 1 < l_max (alias_lim a (N.max 16 cb) (nodes_for e ks + 2))).
    { intros K HK. apply (nb_mono e) in HK. cbn [alias_lim l_max]. unfold nodes_for. clear -HK. lia. }
    assert (Els : (list_to_set ks : gset (list N)) = list_to_set (hupdated ops1) ∪ ({[ k ]} ∪ list_to_set (hupdated ops2))).
    { rewrite Eu, list_to_set_app_L. reflexivity. }
    assert (Hvs : forall ops, Forall (hvalid_op vs) ops -> Forall (hvalid_op (n_vs (a_nlm vs a))) ops) by (rewrite a_vs; auto).
    pose proof (htry_run_ok dbg _ _ _ 90 e _ _ _ _ _ reach_pk255 He mf90 ops1 (a_stable vs a _ Hst) m0 [] {[0]} ∅ ∅ [] (N.max 16 cb) ∅
      (alphabet ks) s1 Hi0) as H.
    specialize (H ltac:(constructor) (Hvs _ Hv1) (no_trap_forall _ _ _ Hnt1) ltac:(unfold alphabet; set_solver) Ha1 HA
      ltac:(apply Hroom2; rewrite Els, dom_empty_L; clear; set_solver)).
    rewrite a_vs in H. specialize (H Es1). rewrite dom_empty_L, union_empty_l_L in H. unfold a_hrun in E1. rewrite E1 in H.
    destruct H as (-> & S1 & D1 & b1 & loc1 & Hi1 & Hh1 & HS1 & Hu1). split; [reflexivity|].
    assert (HkA : (list_to_set k : gset N) ⊆ alphabet ks).
    { etransitivity; [|etransitivity; [exact Ha3|exact Ha2]]. unfold alphabet. simpl concat. rewrite app_nil_r. set_solver. }
    assert (Hsm' : small (n_vs (a_nlm vs a)) k) by (rewrite a_vs; exact Hsm).
    assert (HB : traps dbg a = true -> k <> [0]). { intros Htr ->. apply (Hntk Htr). left. reflexivity. }
    pose proof (update_255 dbg _ _ _ 90 e _ _ _ _ _ reach_pk255 He mf90 m1 S1 D1 (fst (snd s1)) b1 loc1 k (alphabet ks) Hi1 Hk Hsm' HB) as H.
    specialize (H ltac:(apply Hroom2; rewrite Els; clear -Hu1; set_solver) HS1 HkA HA).
    unfold a_update in E2. rewrite E2 in H.
    destruct H as (S2 & D2 & b2 & loc2 & _ & _ & HS2 & Hst2 & -> & _ & Hi2 & _ & H5).
    eapply yields_mono.
    { apply wpx_yields; [exact Hcb2|]. apply (wpt_wpx _ (size S2 < 255)%nat); [lia|].
      apply (htry_run_ok dbg _ _ _ 90 e _ _ _ _ _ reach_pk255 He mf90 ops2 (a_stable vs a _ Hst) m2 (ps ++ [None]) S2 D1 (fst (snd s1))
        (snd (snd s1) ++ [None]) b2 loc2 (alphabet ks) r Hi2).
      - apply Forall2_app; [|repeat constructor]. apply (handles_mono _ _ _ _ m1 D1 loc1); [|exact Hh1].
        exact (kept_mpt _ _ _ _ _ _ _ _ _ _ _ (a_stable vs a _ Hst) Hst2).
      - apply Hvs, Hv2.
      - apply no_trap_forall, Hnt3.
      - exact HS2.
      - etransitivity; eassumption.
      - exact HA.
      - apply Hroom2. rewrite Els. clear -Hu1. set_solver.
      - rewrite a_vs. exact Es2. }
    intros [[xs2 m3] hs3] [-> _]. reflexivity.
  Qed.
End reach.
