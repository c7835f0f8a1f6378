(** States of an alias reached by a history. *)
From Verif.Proofs Require Export AliasP SpecP.
Local Open Scope N_scope.

Lemma supported_vs vs cb e ks : supported vs cb e ks -> (1 <= vs)%nat.
Proof. intros H. apply H. Qed.
Lemma supported_limit vs cb e ks : supported vs cb e ks ->
  e <= 39 /\ N.max 16 cb <= bits_limit (8 + e) /\ nodes_for e ks + 1 < node_limit 90 (8 + e) /\
  (size (alphabet ks) <= 254)%nat.
Proof.
  intros (_ & H1 & H2 & H3). assert (He : e <= 39) by lia. split; [exact He|].
  assert (Eb : bits_limit (8 + e) = 54 - e + 1) by (unfold bits_limit; lia).
  split; [lia|]. split; [|exact H3]. unfold node_limit. rewrite Eb.
  eapply N.lt_le_trans; [exact H2|]. apply max_size_half. lia.
Qed.
Lemma total_app k1 k2 : total_length (k1 ++ k2) = total_length k1 + total_length k2.
Proof. unfold total_length. rewrite concat_app, app_length. lia. Qed.
Lemma alphabet_app k1 k2 : alphabet k1 ⊆ alphabet (k1 ++ k2) /\ alphabet k2 ⊆ alphabet (k1 ++ k2).
Proof. unfold alphabet. rewrite concat_app, list_to_set_app_L. set_solver. Qed.
Lemma nodes_for_mono e k1 k2 : (forall k, In k k1 -> In k k2) -> nodes_for e k1 <= nodes_for e k2.
Proof.
  intros H. apply nb_mono. intros k. rewrite !elem_of_list_to_set, !elem_of_list_In. apply H.
Qed.
Lemma nodes_for_app e k1 k2 : nodes_for e k1 <= nodes_for e (k1 ++ k2).
Proof. apply nodes_for_mono. intros k Hk. apply in_or_app. auto. Qed.
Lemma dom_run vs ops : forall M, dom (snd (spec_run vs M ops)) = dom M ∪ list_to_set (updated ops).
Proof.
  induction ops as [|o ops IH]; intros M; [cbn; set_solver|]. destruct o as [k w|k].
  - change (updated (Update k w :: ops)) with (k :: updated ops).
    assert (E : snd (spec_run vs M (Update k w :: ops)) =
      snd (spec_run vs (<[k := default (default (replicate vs 0) (M !! k)) w]> M) ops)).
    { cbn [spec_run]. unfold spec_step. destruct (spec_run vs _ ops) as [xs d]. reflexivity. }
    rewrite E, IH, dom_insert_L, list_to_set_cons. set_solver.
  - change (updated (Find k :: ops)) with (updated ops). rewrite <- IH. f_equal.
    cbn [spec_run]. unfold spec_step. destruct (spec_run vs _ ops) as [xs d]. reflexivity.
Qed.
Lemma dom_final vs ops : dom (final vs ops) = list_to_set (updated ops).
Proof. unfold final. rewrite dom_run. set_solver. Qed.
Lemma supported_app vs cb e k1 k2 : supported vs cb e (k1 ++ k2) -> supported vs cb e k1.
Proof.
  intros (H0 & H1 & H2 & H3). pose proof (nodes_for_app e k1 k2). destruct (alphabet_app k1 k2) as [Ha _].
  apply subseteq_size in Ha. split; [exact H0|]. split; [exact H1|]. split; lia.
Qed.
Lemma no_trap_app dbg a k1 k2 : no_trap dbg a (k1 ++ k2) -> no_trap dbg a k1 /\ no_trap dbg a k2.
Proof. intros H. split; intros Ht Hin; apply (H Ht), in_or_app; auto. Qed.
Lemma no_trap_forall dbg a ks : no_trap dbg a ks -> traps dbg a = true -> Forall (fun k => k <> [0]) ks.
Proof. intros H Ht. apply Forall_forall. intros k Hk ->. apply (H Ht). apply elem_of_list_In, Hk. Qed.

(** The table of the alias for the keys [ks] of a theorem: at least 2^max(16,cb) slots, at most
    nodes_for e ks + 1 nodes. *)
Notation alias_at dbg vs a cb e ks := (alias_pack dbg vs a e (N.max 16 cb) (nodes_for e ks + 2)).
Notation alias_inv dbg vs a cb e ks := (minv (a_trie dbg a) (a_nlm vs a) e
  (pk_srep _ _ _ _ _ _ (alias_at dbg vs a cb e ks)) (pk_sfresh _ _ _ _ _ _ (alias_at dbg vs a cb e ks))).
Notation alias_pt dbg vs a cb e ks := (mpt (a_trie dbg a) (a_nlm vs a) e (pk_npt _ _ _ _ _ _ (alias_at dbg vs a cb e ks))).
Lemma wpx_yields {A} a cb e ks (r : outcome A) Q : N.max 16 cb <= 56 ->
  wpx (alias_lim a (N.max 16 cb) (nodes_for e ks + 2)) r Q -> yields a cb e ks r Q.
Proof.
  intros Hcb. destruct r as [x| | | |]; simpl; intros H; try contradiction.
  - left. eauto.
  - right. split; [|reflexivity]. destruct H as [H1 H2]. split; [exact H1|]. unfold saturates in H2. cbn [dp_cmf dp_std] in H2.
    pose proof (max_size_34 (N.max 16 cb) ltac:(lia)) as H3. clear -H2 H3. lia.
Qed.
Lemma yields_mono {A} a cb e ks (r : outcome A) (P Q : A -> Prop) :
  yields a cb e ks r P -> (forall x, P x -> Q x) -> yields a cb e ks r Q.
Proof. intros [(x & E & H)|H] HPQ; [left; eauto|right; exact H]. Qed.
Lemma yields_ret {A} a cb e ks (r : outcome A) x Q : yields a cb e ks r Q -> r = Ret x -> Q x.
Proof. intros [(y & E & H)|[_ E]] E2; congruence. Qed.

Lemma zeros_replicate vs : repeat 0 vs = replicate vs 0.
Proof. induction vs; simpl; congruence. Qed.

Section reach.
  Context (dbg : bool) (vs : nat) (a : alias) (cb e : N) (ks : list (list N)).
  Hypothesis Hsup : supported vs cb e ks.

  Lemma reach_pk : store_ok (a_trie dbg a) (a_nlm vs a) (alias_lim a (N.max 16 cb) (nodes_for e ks + 2)) 90 (8 + e)
    (traps dbg a) (tok (a_fk a) (a_frz a) (pk_npt _ _ _ _ _ _ (alias_at dbg vs a cb e ks))) (pk_srep _ _ _ _ _ _ (alias_at dbg vs a cb e ks))
    (pk_sfresh _ _ _ _ _ _ (alias_at dbg vs a cb e ks)) (pk_npt _ _ _ _ _ _ (alias_at dbg vs a cb e ks)).
  Proof.
    destruct (supported_limit _ _ _ _ Hsup) as (He & Hcb & Hroom & HA).
    apply (pk_ok _ _ _ _ _ _ (alias_at dbg vs a cb e ks)); [apply Hsup|lia|lia].
  Qed.
  Lemma sup_bits : N.max 16 cb <= 56.
  Proof. destruct Hsup as (_ & H & _). lia. Qed.
  Lemma new_inv : exists m0, a_new dbg vs a cb (2 ^ e) = Ret m0 /\
    alias_inv dbg vs a cb e ks m0 {[ 0 ]} ∅ ∅ (N.max 16 cb) ∅.
  Proof.
    destruct (supported_limit _ _ _ _ Hsup) as (He & Hcb & _ & _).
    destruct (map_new_ok _ _ _ _ _ _ _ _ _ _ reach_pk He cb Hcb) as (m & E & Hf); [cbn; lia|].
    exists m. split; [exact E|]. apply mfresh_minv, Hf.
  Qed.
  Lemma valid_op_vs ops : Forall (valid_op vs) ops -> Forall (valid_op (n_vs (a_nlm vs a))) ops.
  Proof. rewrite a_vs. auto. Qed.

  Lemma run_inv ops1 ops2 rest m S D b loc : ks = updated (ops1 ++ ops2) ++ rest -> Forall (valid_op vs) ops2 ->
    no_trap dbg a (updated ops2) ->
    alias_inv dbg vs a cb e ks m S D (final vs ops1) b loc -> S ⊆ alphabet (updated ops1) ->
    yields a cb e ks (a_run dbg vs a m ops2) (fun '(xs, m') => xs = fst (spec_run vs (final vs ops1) ops2) /\
      exists S' D' b' loc', b <= b' /\ alias_inv dbg vs a cb e ks m' S' D' (final vs (ops1 ++ ops2)) b' loc' /\
        S' ⊆ alphabet (updated (ops1 ++ ops2))).
  Proof.
    intros Eks Hv Hnt Hi HSA. destruct (supported_limit _ _ _ _ Hsup) as (He & Hcb & Hroom & HA).
    pose proof Eks as Eks'. rewrite updated_app in *. destruct (alphabet_app (updated ops1) (updated ops2)) as [Ha1 Ha2].
    destruct (alphabet_app (updated ops1 ++ updated ops2) rest) as [Ha3 _]. rewrite <- Eks' in Ha3.
    apply subseteq_size in Ha3.
    eapply yields_mono.
    { apply wpx_yields; [exact sup_bits|].
      apply (run_ok dbg _ _ _ 90 e _ _ _ _ _ reach_pk He mf90 ops2 m S D (final vs ops1) b loc
               (alphabet (updated ops1 ++ updated ops2)) Hi); auto.
      - apply valid_op_vs, Hv.
      - apply no_trap_forall, Hnt.
      - etransitivity; eassumption.
      - lia.
      - cbn [alias_lim l_max]. rewrite dom_final, <- list_to_set_app_L.
        pose proof (nodes_for_app e (updated ops1 ++ updated ops2) rest) as Hle. rewrite <- Eks' in Hle.
        unfold nodes_for at 1 in Hle. clear -Hle. lia. }
    assert (Ef : snd (spec_run vs (final vs ops1) ops2) = final vs (ops1 ++ ops2)).
    { unfold final. rewrite spec_run_app. reflexivity. }
    intros [xs m']. rewrite a_vs, Ef. auto.
  Qed.
  Lemma reach_inv ops rest m : ks = updated ops ++ rest -> Forall (valid_op vs) ops -> no_trap dbg a (updated ops) ->
    reaches dbg vs a cb e ops m ->
    exists S D b loc, alias_inv dbg vs a cb e ks m S D (final vs ops) b loc /\ S ⊆ alphabet (updated ops) /\
      N.max 16 cb <= b.
  Proof.
    intros Eks Hv Hnt (m0 & xs & E0 & E). destruct new_inv as (m0' & E0' & Hi).
    rewrite E0 in E0'. injection E0' as <-.
    pose proof (run_inv [] ops rest m0 _ _ _ _ Eks Hv Hnt Hi) as H.
    assert (HSA : ({[ 0 ]} : gset N) ⊆ alphabet (updated [])) by (unfold alphabet; set_solver).
    specialize (H HSA). destruct (yields_ret _ _ _ _ _ _ _ H E) as (_ & S & D & b & loc & Hb & Hi' & HS').
    exists S, D, b, loc. auto.
  Qed.
  Lemma run_total ops : ks = updated ops -> Forall (valid_op vs) ops -> no_trap dbg a (updated ops) ->
    exists m0, a_new dbg vs a cb (2 ^ e) = Ret m0 /\
      yields a cb e ks (a_run dbg vs a m0 ops) (fun '(xs, _) => xs = fst (spec_run vs ∅ ops)).
  Proof.
    intros Eks Hv Hnt. destruct new_inv as (m0 & E0 & Hi). exists m0. split; [exact E0|].
    eapply yields_mono.
    { apply (run_inv [] ops [] m0 {[0]} ∅ (N.max 16 cb) ∅); auto.
      - rewrite app_nil_r. exact Eks.
      - unfold alphabet; set_solver. }
    intros [xs m'] [H _]. exact H.
  Qed.
  (** One more update. *)
  Lemma reach_update ops m k : ks = updated ops ++ [k] -> Forall (valid_op vs) ops ->
    no_trap dbg a (updated ops ++ [k]) -> valid_key k -> small vs k -> reaches dbg vs a cb e ops m ->
    exists S D b loc, alias_inv dbg vs a cb e ks m S D (final vs ops) b loc /\
    yields a cb e ks (a_update dbg vs a m k) (fun '(r, m') => exists p S' D' b' loc', r = UPtr (Some p) /\
      b <= b' /\ (stable_alias a = true -> forall k' p, alias_pt dbg vs a cb e ks m D loc k' p -> alias_pt dbg vs a cb e ks m' D' loc' k' p) /\
      alias_inv dbg vs a cb e ks m' S' D' (<[k := default (zeros vs) (final vs ops !! k)]> (final vs ops)) b' loc' /\
      alias_pt dbg vs a cb e ks m' D' loc' k p).
  Proof.
    intros Eks Hv Hnt Hk Hsm Hr. destruct (no_trap_app _ _ _ _ Hnt) as [Hnt1 Hnt2].
    destruct (reach_inv ops [k] m Eks Hv Hnt1 Hr) as (S & D & b & loc & Hi & HSA & Hb).
    exists S, D, b, loc. split; [exact Hi|].
    destruct (supported_limit _ _ _ _ Hsup) as (He & Hcb & Hroom & HA).
    destruct (alphabet_app (updated ops) [k]) as [Ha1 Ha2].
    eapply yields_mono.
    { apply wpx_yields; [exact sup_bits|].
      apply (update_alpha dbg _ _ _ 90 e _ _ _ _ _ reach_pk He mf90 m S D _ b loc k (alphabet (updated ops ++ [k])) Hi Hk).
      - rewrite a_vs. exact Hsm.
      - intros Htr ->. apply (Hnt2 Htr). left. reflexivity.
      - cbn [alias_lim l_max]. rewrite dom_final. pose proof (nodes_for_app e (updated ops) [k]) as Hle. rewrite <- Eks in Hle.
        unfold nodes_for at 1 in Hle. clear -Hle. lia.
      - etransitivity; eassumption.
      - etransitivity; [|exact Ha2]. unfold alphabet. simpl concat. rewrite app_nil_r. set_solver.
      - rewrite <- Eks. exact HA. }
    rewrite a_vs. intros [r m'] (p & S' & D' & b' & loc' & H1 & H2 & H3 & [H5 _] & H6 & H7).
    exists p, S', D', b', loc'. split; [exact H1|]. split; [exact H2|]. split; [|split; [exact H6|exact H7]].
    intros Hst. exact (kept_mpt _ _ _ _ _ _ _ _ _ _ _ (a_stable vs a _ Hst) H5).
  Qed.
  Lemma inv_find m S D M b loc k : alias_inv dbg vs a cb e ks m S D M b loc -> valid_key k ->
    N.of_nat (length k) < 2 ^ 64 -> find_value dbg vs a m k = Ret (M !! k).
  Proof.
    intros Hi Hk Hlen. destruct (valid_okey k Hk) as [Hok Hb].
    destruct (supported_limit _ _ _ _ Hsup) as (He & _).
    pose proof (minv_find dbg _ _ _ 90 e _ _ _ _ _ reach_pk He m S D M b loc k Hi Hok Hb Hlen) as H.
    unfold find_value, a_find. destruct (map_find dbg _ _ m k) as [[p|]| | | |]; try contradiction; rewrite bind_ret.
    - destruct H as [_ H]. destruct (minv_read _ _ _ 90 e _ _ _ _ _ reach_pk m S D M b loc k p Hi H) as (v & Hv & E).
      unfold a_read, map_read. rewrite E, bind_ret, Hv. reflexivity.
    - rewrite H. reflexivity.
  Qed.
  Lemma inv_read m S D M b loc k p : alias_inv dbg vs a cb e ks m S D M b loc -> alias_pt dbg vs a cb e ks m D loc k p ->
    exists v, M !! k = Some v /\ a_read dbg vs a m p = Ret v.
  Proof. intros Hi Hp. apply (minv_read _ _ _ 90 e _ _ _ _ _ reach_pk m S D M b loc k p Hi Hp). Qed.
  Lemma inv_write m S D M b loc k p w : alias_inv dbg vs a cb e ks m S D M b loc -> alias_pt dbg vs a cb e ks m D loc k p ->
    length w = vs -> exists m' D', a_write dbg vs a m p w = Ret m' /\ alias_inv dbg vs a cb e ks m' S D' (<[k := w]> M) b loc /\
      (forall k' q, alias_pt dbg vs a cb e ks m D loc k' q -> alias_pt dbg vs a cb e ks m' D' loc k' q).
  Proof.
    intros Hi Hp Hw. destruct (minv_write _ _ _ 90 e _ _ _ _ _ reach_pk m S D M b loc k p w Hi Hp) as (h & D' & E & H1 & H2 & _).
    { rewrite a_vs. exact Hw. }
    unfold a_write, map_write. rewrite E, bind_ret. eauto.
  Qed.
End reach.
