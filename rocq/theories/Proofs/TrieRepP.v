(** Hash tries: a table of (parent, symbol) keys represents a finite map from paths to node ids.
    A path is the list of edge symbols from the root, last edge first. *)
From Verif.Proofs Require Export ProbeP HashP MaxSizeP CompactVectorP BitVectorP.
Local Open Scope N_scope.

(** Key of the edge ([v], [s]). *)
Definition ekey (sb v s : N) : N := v * 2 ^ sb + s.
Lemma ekey_div sb v s : s < 2 ^ sb -> ekey sb v s / 2 ^ sb = v.
Proof.
  intros Hs. unfold ekey. pose proof (pow2_pos sb).
  rewrite N.div_add_l by lia. rewrite N.div_small by exact Hs. lia.
Qed.
Lemma ekey_mod sb v s : s < 2 ^ sb -> ekey sb v s mod 2 ^ sb = s.
Proof.
  intros Hs. unfold ekey. pose proof (pow2_pos sb).
  rewrite N.add_comm, N.mod_add by lia. apply N.mod_small, Hs.
Qed.
Lemma ekey_split sb k : ekey sb (k / 2 ^ sb) (k mod 2 ^ sb) = k.
Proof. unfold ekey. pose proof (pow2_pos sb). rewrite N.mul_comm. symmetry. apply N.div_mod. lia. Qed.
Lemma ekey_lt b sb v s : v < 2 ^ b -> s < 2 ^ sb -> ekey sb v s < 2 ^ (b + sb).
Proof.
  intros Hv Hs. unfold ekey. rewrite N.pow_add_r.
  assert (v * 2 ^ sb + 2 ^ sb <= 2 ^ b * 2 ^ sb); [|lia].
  replace (v * 2 ^ sb + 2 ^ sb) with ((v + 1) * 2 ^ sb) by lia.
  apply N.mul_le_mono_r. lia.
Qed.
Lemma ekey_inj sb v s v' s' : s < 2 ^ sb -> s' < 2 ^ sb -> ekey sb v s = ekey sb v' s' -> v = v' /\ s = s'.
Proof.
  intros Hs Hs' E. pose proof (ekey_div sb v s Hs) as H1. pose proof (ekey_mod sb v s Hs) as H2.
  rewrite E, ekey_div in H1 by assumption. rewrite E, ekey_mod in H2 by assumption. auto.
Qed.

Record trep (M sb root : N) (home : N -> N) (c : N -> cell) (idof : N -> N)
            (loc : gmap (list N) N) : Prop := {
  tr_pinv : pinv M home c;
  tr_root : loc !! [] = Some root;
  tr_cell : forall s p x, loc !! (s :: p) = Some x -> s < 2 ^ sb /\
     exists v i, loc !! p = Some v /\ i < M /\ c i = Full (ekey sb v s) /\ idof i = x;
  tr_path : forall i k, i < M -> c i = Full k -> exists p,
     loc !! p = Some (k / 2 ^ sb) /\ loc !! (k mod 2 ^ sb :: p) = Some (idof i);
  tr_inj : forall i j k k', i < M -> j < M -> c i = Full k -> c j = Full k' -> idof i = idof j -> i = j;
  tr_nroot : forall i k, i < M -> c i = Full k -> idof i <> root }.

Section trep.
  Context (M sb root : N) (home : N -> N) (c : N -> cell) (idof : N -> N) (loc : gmap (list N) N).
  Hypothesis HM : 0 < M.
  Hypothesis Hhome : forall k, home k < M.
  Hypothesis H : trep M sb root home c idof loc.

  Lemma trep_loc_inj p q x : loc !! p = Some x -> loc !! q = Some x -> p = q.
  Proof.
    revert q x. induction p as [|s p IH]; intros q x Hp Hq.
    - destruct q as [|s q]; [reflexivity|].
      destruct (tr_cell _ _ _ _ _ _ _ H _ _ _ Hq) as (_ & v & i & _ & Hi & Hc & Hx).
      rewrite (tr_root _ _ _ _ _ _ _ H) in Hp. injection Hp as E.
      exfalso. apply (tr_nroot _ _ _ _ _ _ _ H i _ Hi Hc). congruence.
    - destruct (tr_cell _ _ _ _ _ _ _ H _ _ _ Hp) as (Hs & v & i & Hv & Hi & Hc & Hx).
      destruct q as [|s' q].
      + rewrite (tr_root _ _ _ _ _ _ _ H) in Hq. injection Hq as E.
        exfalso. apply (tr_nroot _ _ _ _ _ _ _ H i _ Hi Hc). congruence.
      + destruct (tr_cell _ _ _ _ _ _ _ H _ _ _ Hq) as (Hs' & v' & i' & Hv' & Hi' & Hc' & Hx').
        assert (i = i') by (eapply (tr_inj _ _ _ _ _ _ _ H); eauto; congruence). subst i'.
        rewrite Hc in Hc'. injection Hc' as E. apply ekey_inj in E as [<- <-]; try assumption.
        f_equal. apply (IH q v Hv Hv').
  Qed.

  Lemma trep_found p v s i : loc !! p = Some v -> s < 2 ^ sb -> i < M -> c i = Full (ekey sb v s) ->
    loc !! (s :: p) = Some (idof i).
  Proof.
    intros Hp Hs Hi Hc. destruct (tr_path _ _ _ _ _ _ _ H i _ Hi Hc) as (q & H1 & H2).
    rewrite ekey_div in H1 by exact Hs. rewrite ekey_mod in H2 by exact Hs.
    rewrite (trep_loc_inj p q v Hp H1). exact H2.
  Qed.
  Lemma trep_absent p v s : loc !! p = Some v -> s < 2 ^ sb ->
    (forall j, j < M -> c j <> Full (ekey sb v s)) -> loc !! (s :: p) = None.
  Proof.
    intros Hp Hs Hab. destruct (loc !! (s :: p)) as [x|] eqn:E; [|reflexivity].
    destruct (tr_cell _ _ _ _ _ _ _ H _ _ _ E) as (_ & v' & i & Hv & Hi & Hc & _).
    exfalso. apply (Hab i Hi). rewrite Hc. do 2 f_equal. congruence.
  Qed.
  Lemma trep_orphan v s i : s < 2 ^ sb -> i < M -> c i = Full (ekey sb v s) ->
    exists p, loc !! p = Some v /\ loc !! (s :: p) = Some (idof i).
  Proof.
    intros Hs Hi Hc. destruct (tr_path _ _ _ _ _ _ _ H i _ Hi Hc) as (q & H1 & H2).
    rewrite ekey_div in H1 by exact Hs. rewrite ekey_mod in H2 by exact Hs. eauto.
  Qed.
  (** The parent of a located node is located. *)
  Lemma trep_parent s p x : loc !! (s :: p) = Some x -> exists v, loc !! p = Some v.
  Proof.
    intros E. destruct (tr_cell _ _ _ _ _ _ _ H _ _ _ E) as (_ & v & _ & Hv & _). eauto.
  Qed.

  (** Insertion of a new child. *)
  Lemma trep_insert p v s d x c' idof' :
    loc !! p = Some v -> s < 2 ^ sb -> d < M ->
    c (slot M (home (ekey sb v s)) d) = Vac ->
    (forall d', d' < d -> c (slot M (home (ekey sb v s)) d') <> Vac) ->
    (forall j, j < M -> c j <> Full (ekey sb v s)) ->
    (forall q, loc !! q <> Some x) ->
    (forall j, j < M -> c' j = cell_upd c (slot M (home (ekey sb v s)) d) (Full (ekey sb v s)) j) ->
    idof' (slot M (home (ekey sb v s)) d) = x ->
    (forall j k, j < M -> c j = Full k -> idof' j = idof j) ->
    trep M sb root home c' idof' (<[s :: p := x]> loc).
  Proof.
    intros Hp Hs Hd Hv Hpr Hab Hx Hc' Hid Hid'.
    set (k := ekey sb v s) in *. set (i := slot M (home k) d) in *.
    assert (Hi : i < M) by (apply slot_lt, HM).
    assert (Hnew : loc !! (s :: p) = None) by (apply (trep_absent p v s); assumption).
    assert (Hci : c' i = Full k). { rewrite Hc' by exact Hi. unfold cell_upd. rewrite N.eqb_refl. reflexivity. }
    assert (Hcj : forall j, j < M -> j <> i -> c' j = c j).
    { intros j Hj Hne. rewrite Hc' by exact Hj. unfold cell_upd. rewrite (proj2 (N.eqb_neq _ _) Hne). reflexivity. }
    assert (Hkeep : forall q y, loc !! q = Some y -> <[s :: p := x]> loc !! q = Some y).
    { intros q y Hq. rewrite lookup_insert_ne; [exact Hq|]. congruence. }
    assert (Hused : forall j k', j < M -> c j = Full k' -> exists q, loc !! q = Some (idof j)).
    { intros j k' Hj Hc. destruct (tr_path _ _ _ _ _ _ _ H j k' Hj Hc) as (q & _ & H2). eauto. }
    split.
    - apply (pinv_ext M home HM (cell_upd c i (Full k))).
      { intros j Hj. symmetry. apply Hc', Hj. }
      apply pinv_insert; auto. apply (tr_pinv _ _ _ _ _ _ _ H).
    - apply Hkeep, (tr_root _ _ _ _ _ _ _ H).
    - intros s' q y Hq. destruct (decide (s' :: q = s :: p)) as [E|Hne].
      + injection E as -> ->. rewrite lookup_insert in Hq. injection Hq as <-.
        split; [exact Hs|]. exists v, i. repeat split; auto.
      + rewrite lookup_insert_ne in Hq by congruence.
        destruct (tr_cell _ _ _ _ _ _ _ H _ _ _ Hq) as (Hs' & v' & j & Hv' & Hj & Hc & Hy).
        split; [exact Hs'|]. exists v', j. repeat split; auto.
        * rewrite Hcj; [exact Hc|exact Hj|]. intros ->. congruence.
        * rewrite (Hid' j _ Hj Hc). exact Hy.
    - intros j k' Hj Hc. destruct (N.eq_dec j i) as [->|Hne].
      + rewrite Hci in Hc. injection Hc as <-. exists p.
        unfold k at 1 2. rewrite ekey_div, ekey_mod by exact Hs. split; [apply Hkeep, Hp|].
        rewrite Hid. apply lookup_insert.
      + rewrite Hcj in Hc by assumption. destruct (tr_path _ _ _ _ _ _ _ H j k' Hj Hc) as (q & H1 & H2).
        exists q. split; [apply Hkeep, H1|]. rewrite (Hid' j k' Hj Hc). apply Hkeep, H2.
    - intros j1 j2 k1 k2 Hj1 Hj2 Hc1 Hc2 E.
      destruct (N.eq_dec j1 i) as [->|Hn1], (N.eq_dec j2 i) as [->|Hn2]; auto.
      + rewrite Hcj in Hc2 by assumption. rewrite Hid, (Hid' j2 k2 Hj2 Hc2) in E.
        destruct (Hused j2 k2 Hj2 Hc2) as (q & Hq). exfalso. apply (Hx q). congruence.
      + rewrite Hcj in Hc1 by assumption. rewrite Hid, (Hid' j1 k1 Hj1 Hc1) in E.
        destruct (Hused j1 k1 Hj1 Hc1) as (q & Hq). exfalso. apply (Hx q). congruence.
      + rewrite Hcj in Hc1, Hc2 by assumption.
        rewrite (Hid' j1 k1 Hj1 Hc1), (Hid' j2 k2 Hj2 Hc2) in E.
        apply (tr_inj _ _ _ _ _ _ _ H j1 j2 k1 k2); assumption.
    - intros j k' Hj Hc. destruct (N.eq_dec j i) as [->|Hne].
      + rewrite Hid. intros ->. apply (Hx []). apply (tr_root _ _ _ _ _ _ _ H).
      + rewrite Hcj in Hc by assumption. rewrite (Hid' j k' Hj Hc).
        apply (tr_nroot _ _ _ _ _ _ _ H j k' Hj Hc).
  Qed.
End trep.

Lemma trep_ext M sb root home c c' idof idof' loc : 0 < M ->
  (forall i, i < M -> c i = c' i) -> (forall i k, i < M -> c i = Full k -> idof i = idof' i) ->
  trep M sb root home c idof loc -> trep M sb root home c' idof' loc.
Proof.
  intros HM Hc Hid [H1 H2 H3 H4 H5 H6]. split; auto.
  - apply (pinv_ext M home HM c); assumption.
  - intros s p x E. destruct (H3 s p x E) as (Hs & v & i & Hv & Hi & Hci & Hx). split; [exact Hs|].
    exists v, i. rewrite <- Hc by exact Hi. repeat split; auto. rewrite <- (Hid i _ Hi Hci). exact Hx.
  - intros i k Hi Hci. rewrite <- Hc in Hci by exact Hi. rewrite <- (Hid i k Hi Hci). apply H4; assumption.
  - intros i j k k' Hi Hj H7 H8 E. rewrite <- Hc in H7, H8 by assumption.
    rewrite <- (Hid i k Hi H7), <- (Hid j k' Hj H8) in E. eapply H5; eauto.
  - intros i k Hi Hci. rewrite <- Hc in Hci by exact Hi. rewrite <- (Hid i k Hi Hci). apply (H6 i k Hi Hci).
Qed.

Lemma trep_root_only M sb root home c idof : (forall i k, i < M -> c i <> Full k) ->
  trep M sb root home c idof {[ [] := root ]}.
Proof.
  intros Hc. split.
  - apply pinv_empty, Hc.
  - apply lookup_singleton.
  - intros s p x E. rewrite lookup_singleton_ne in E by discriminate. discriminate.
  - intros i k Hi E. exfalso. apply (Hc i k Hi E).
  - intros i j k k' Hi _ E. exfalso. apply (Hc i k Hi E).
  - intros i k Hi E. exfalso. apply (Hc i k Hi E).
Qed.
