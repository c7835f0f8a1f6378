(** The compact FK-hash label store meets its contract. *)
From Verif.Proofs Require Export EntriesP CompactBonsaiNlmP.
From Verif.Proofs Require Import BitToolsP BitTools2P PlainNlmP.
Local Open Scope N_scope.

(** Entries of the positions [base .. base+n-1]; a step node has an empty entry. *)
Definition fcell (o : option (list N * list N)) : list N := match o with Some e => body e | None => [] end.
Fixpoint fents (m : labs) (base : N) (n : nat) : list (list N) :=
  match n with O => [] | S n => fents m base n ++ [fcell (m !! (base + N.of_nat n))] end.
Lemma fents_length m base n : length (fents m base n) = n.
Proof. induction n as [|n IH]; [reflexivity|]. simpl. rewrite app_length, IH. simpl. lia. Qed.
Lemma fents_app m base a b : fents m base (a + b) = fents m base a ++ fents m (base + N.of_nat a) b.
Proof.
  induction b as [|b IH]; [rewrite Nat.add_0_r, app_nil_r; reflexivity|].
  rewrite Nat.add_succ_r. simpl. rewrite IH, <- app_assoc. do 5 f_equal. lia.
Qed.
Lemma fents_ext m m' base n : (forall x, base <= x < base + N.of_nat n -> m !! x = m' !! x) -> fents m base n = fents m' base n.
Proof.
  induction n as [|n IH]; intros H; [reflexivity|]. simpl. rewrite IH by (intros; apply H; lia).
  rewrite H by lia. reflexivity.
Qed.
Lemma fents_split m base j n : (j < n)%nat ->
  fents m base n = fents m base j ++ [fcell (m !! (base + N.of_nat j))] ++ fents m (base + N.of_nat j + 1) (n - j - 1).
Proof.
  intros H. replace n with (j + (1 + (n - j - 1)))%nat at 1 by lia. rewrite fents_app. f_equal.
  rewrite fents_app. simpl. rewrite N.add_0_r. reflexivity.
Qed.
Lemma fents_forall (Q : list N -> Prop) m base n : Q [] -> (forall x e, m !! x = Some e -> Q (body e)) -> Forall Q (fents m base n).
Proof.
  intros H0 H. induction n as [|n IH]; simpl; [constructor|]. apply Forall_app. split; [exact IH|].
  constructor; [|constructor]. destruct (m !! _) eqn:E; simpl; [eapply H, E|exact H0].
Qed.

Section cfn.
  Context (cs : N) (vs : nat).
  Hypothesis Hcs : width_ok cs.
  Hypothesis Hvs : (1 <= vs)%nat.
  Notation K := (N.to_nat cs).

  Definition flook (n : cfn) (i : N) : option N :=
    if i <? vlen (cfn_ptrs n) then vnth (cfn_ptrs n) i
    else if i =? vlen (cfn_ptrs n) then cfn_buf n else None.
  (** The number of entries of chunk [i] when [c] positions exist. *)
  Definition fcount (c i : N) : nat := N.to_nat (N.min cs (c - i * cs)).
  Definition fblocks (c : N) (m : labs) (i : N) : option (list N) :=
    if i * cs <? c then Some (encs (fents m (i * cs) (fcount c i))) else None.
  Definition released (c : N) (m : labs) (C : N) : N := sumn (fun i => olen (fblocks c m i)) (N.to_nat C).
  Record cfn_rep (c : N) (n : cfn) (m : labs) : Prop := {
    fr_size : cfn_size n = c;
    fr_lim : c < 2 ^ 57;
    fr_len : vlen (cfn_ptrs n) = (c - 1) / cs;
    fr_good : goodm vs c m;
    fr_owns : owns (flook n) (cfn_heap n) (fblocks c m);
    fr_bytes : cfn_bytes n = w64 (released c m ((c - 1) / cs)) }.

  Lemma fgood_fits P m base n : goodm vs P m -> Forall fits (fents m base n).
  Proof.
    intros H. apply fents_forall; [reflexivity|]. intros x [l v] E. destruct (H x l v E) as (_ & Hv & Hs).
    eapply body_fits; eassumption.
  Qed.
  Lemma fits_64 c : c < 2 ^ 57 -> c + 1 < 2 ^ 64.
  Proof.
    intros H. apply N.le_lt_trans with (2 ^ 57); [lia|reflexivity].
  Qed.
  Lemma fblock_at c m x : x < c ->
    fblocks c m (x / cs) = Some (encs (fents m (x / cs * cs) (N.to_nat (x mod cs))) ++ enc (fcell (m !! x)) ++
      encs (fents m (x + 1) (fcount c (x / cs) - N.to_nat (x mod cs) - 1))).
  Proof.
    intros Hx. destruct (pos_split cs Hcs x) as [Ex Hm]. unfold fblocks.
    rewrite (proj2 (N.ltb_lt (x / cs * cs) c)) by lia. f_equal.
    rewrite (fents_split m _ (N.to_nat (x mod cs)) (fcount c (x / cs))) by (unfold fcount; lia).
    rewrite N2Nat.id, <- Ex, !encs_app, encs_one. reflexivity.
  Qed.

  Definition cfn_pt (n : cfn) (x : N) (p : ptr) : Prop :=
    exists id blk off d, x < cfn_size n /\ flook n (x / cs) = Some id /\
      hp_find (cfn_heap n) id = Some blk /\ skip_entries blk (x mod cs) = Ret off /\
      vbyte_decode (skipn (N.to_nat off) blk) = Ret d /\ N.of_nat vs <= fst d /\
      p = (id, off + snd d + fst d - N.of_nat vs).
  Definition fvoff (m : labs) (x : N) (l : list N) : N :=
    N.of_nat (length (encs (fents m (x / cs * cs) (N.to_nat (x mod cs))))) +
    N.of_nat (length (vb (N.of_nat (length (stored_label l)) + N.of_nat vs))) + N.of_nat (length (stored_label l)).

  Lemma rep_at c n m x : cfn_rep c n m -> x < c ->
    exists id, flook n (x / cs) = Some id /\ hp_find (cfn_heap n) id = fblocks c m (x / cs).
  Proof.
    intros R Hx. destruct (flook n (x / cs)) as [id|] eqn:E.
    - destruct (ow_some _ _ _ (fr_owns _ _ _ R) _ _ E) as (blk & H1 & H2). exists id. split; [reflexivity|congruence].
    - apply (ow_none _ _ _ (fr_owns _ _ _ R)) in E. rewrite fblock_at in E by exact Hx. discriminate.
  Qed.
  Lemma skip_at c n m x rest : cfn_rep c n m ->
    skip_entries (encs (fents m (x / cs * cs) (N.to_nat (x mod cs))) ++ rest) (x mod cs) =
    Ret (N.of_nat (length (encs (fents m (x / cs * cs) (N.to_nat (x mod cs)))))).
  Proof.
    intros R. destruct (pos_split cs Hcs x) as [Ex Hm]. pose proof (cs_pos cs Hcs).
    replace (x mod cs) with (N.of_nat (length (fents m (x / cs * cs) (N.to_nat (x mod cs))))) at 2
      by (rewrite fents_length; lia).
    apply skip_ok.
    - eapply fgood_fits, (fr_good _ _ _ R).
    - rewrite fents_length. apply N.le_lt_trans with 64; [lia|reflexivity].
  Qed.
  Lemma fcell_fits c m x : goodm vs c m -> fits (fcell (m !! x)).
  Proof.
    intros G. destruct (m !! x) as [[l v]|] eqn:E; [|reflexivity]. destruct (G x l v E) as (_ & Hv & Hs).
    eapply body_fits; eassumption.
  Qed.
  Lemma fpt_iff c n m x l v id p : cfn_rep c n m -> m !! x = Some (l, v) -> flook n (x / cs) = Some id ->
    cfn_pt n x p <-> p = (id, fvoff m x l).
  Proof.
    intros R E Hid. destruct (fr_good _ _ _ R x l v E) as (Hx & Hv & Hs).
    destruct (rep_at c n m x R Hx) as (id' & Hid' & Hf). rewrite Hid in Hid'. injection Hid' as <-.
    rewrite fblock_at in Hf by exact Hx. pose proof (fcell_fits c m x (fr_good _ _ _ R)) as Hfit.
    rewrite E in *. cbn [fcell] in *.
    pose proof (skip_at c n m x (enc (body (l, v)) ++ encs (fents m (x + 1) (fcount c (x / cs) - N.to_nat (x mod cs) - 1))) R) as Hsk.
    pose proof (decode_enc (encs (fents m (x / cs * cs) (N.to_nat (x mod cs)))) (body (l, v))
      (encs (fents m (x + 1) (fcount c (x / cs) - N.to_nat (x mod cs) - 1))) Hfit) as Hd.
    pose proof (body_len vs l v Hv) as Hbl.
    unfold cfn_pt, fvoff. rewrite <- Hbl. rewrite (fr_size _ _ _ R). split.
    - intros (id0 & blk & off & d & _ & Hid0 & Hf0 & Hs0 & Hd0 & _ & ->).
      rewrite Hid in Hid0. injection Hid0 as <-. rewrite Hf in Hf0. injection Hf0 as <-.
      rewrite Hsk in Hs0. injection Hs0 as <-. rewrite Hd in Hd0. injection Hd0 as <-. cbn [fst snd].
      f_equal. rewrite Hbl. lia.
    - intros ->. eexists id, _, _, _. split; [exact Hx|]. split; [exact Hid|]. split; [exact Hf|].
      split; [exact Hsk|]. split; [exact Hd|]. cbn [fst snd]. split; [rewrite Hbl; lia|]. f_equal. rewrite Hbl. lia.
  Qed.
  Lemma fpt_some c n m x p : cfn_rep c n m -> cfn_pt n x p -> exists l v, m !! x = Some (l, v).
  Proof.
    intros R (id & blk & off & d & Hx & Hid & Hf & Hs & Hd & Hle & _). rewrite (fr_size _ _ _ R) in Hx.
    destruct (rep_at c n m x R Hx) as (id' & Hid' & Hf'). rewrite Hid in Hid'. injection Hid' as <-.
    rewrite fblock_at in Hf' by exact Hx. rewrite Hf in Hf'. injection Hf' as ->.
    rewrite (skip_at c n m x _ R) in Hs. injection Hs as <-.
    rewrite decode_enc in Hd by (eapply fcell_fits, (fr_good _ _ _ R)). injection Hd as <-. cbn [fst] in Hle.
    destruct (m !! x) as [[l v]|]; [eauto|]. simpl in Hle. lia.
  Qed.

  (** [compare] works on the entry of the position. *)
  Lemma cfn_compare_entry c n m x l v : cfn_rep c n m -> m !! x = Some (l, v) ->
    exists id a rest, Forall fits a /\ N.of_nat (length a) < 2 ^ 64 /\ fits (body (l, v)) /\ length v = vs /\
      x < c /\ flook n (x / cs) = Some id /\
      hp_find (cfn_heap n) id = Some (encs a ++ enc (body (l, v)) ++ rest) /\
      a = fents m (x / cs * cs) (N.to_nat (x mod cs)) /\
      (forall k, cfn_compare cs vs n x k = entry_compare true vs id (encs a ++ enc (body (l, v)) ++ rest) (N.of_nat (length a)) k).
  Proof.
    intros R E. destruct (fr_good _ _ _ R x l v E) as (Hx & Hv & Hs).
    destruct (rep_at c n m x R Hx) as (id & Hid & Hf). rewrite fblock_at in Hf by exact Hx.
    destruct (pos_split cs Hcs x) as [Ex Hm]. pose proof (cs_pos cs Hcs).
    pose proof (fcell_fits c m x (fr_good _ _ _ R)) as Hfit. rewrite E in Hf, Hfit. cbn [fcell] in Hf, Hfit.
    exists id, (fents m (x / cs * cs) (N.to_nat (x mod cs))), (encs (fents m (x + 1) (fcount c (x / cs) - N.to_nat (x mod cs) - 1))).
    set (A := fents m (x / cs * cs) (N.to_nat (x mod cs))) in *.
    assert (Hxm : x mod cs = N.of_nat (length A)) by (unfold A; rewrite fents_length; lia).
    split; [eapply fgood_fits, (fr_good _ _ _ R)|].
    split. { unfold A. rewrite fents_length. apply N.le_lt_trans with 64; [lia|reflexivity]. }
    split; [exact Hfit|]. split; [exact Hv|]. split; [exact Hx|]. split; [exact Hid|]. split; [exact Hf|]. split; [reflexivity|].
    intros k'. unfold cfn_compare, decompose_value. rewrite assert_true.
    2:{ apply N.ltb_lt. rewrite (fr_size _ _ _ R). exact Hx. }
    rewrite bind_ret. unfold flook in Hid. destruct (N.ltb_spec (x / cs) (vlen (cfn_ptrs n))) as [Hlt|Hge].
    - rewrite vget_ok by exact Hlt. rewrite bind_ret, Hid. unfold hp_block. rewrite Hf, bind_ret, Hxm. reflexivity.
    - destruct (N.eqb_spec (x / cs) (vlen (cfn_ptrs n))); [|discriminate]. rewrite assert_true by reflexivity.
      rewrite !bind_ret, Hid. unfold hp_block. rewrite Hf, bind_ret, Hxm. reflexivity.
  Qed.
  Lemma cfn_compare_ok c n m x k l v : cfn_rep c n m -> m !! x = Some (l, v) ->
    (k = [] /\ l = []) \/ (okey k /\ okey l) -> cmp_spec (cfn_ops cs vs) cfn_pt n x k l.
  Proof.
    intros R E Hk. destruct (cfn_compare_entry c n m x l v R E) as (id & a & rest & Ha & Hla & Hb & Hv & Hx & Hid & Hf & Ea & Hc).
    destruct (entry_compare_ok true vs id a rest k l v Hv Ha Hla Hb Hk) as [H1 H2].
    split; cbn [n_compare cfn_ops].
    - intros Hkl. destruct (H1 Hkl) as [i Hi]. rewrite Hc, Hi. eexists _, i. split; [reflexivity|].
      apply (fpt_iff c n m x l v id); try assumption. rewrite Ea. unfold fvoff. rewrite (body_len vs l v Hv). reflexivity.
    - intros Hkl. rewrite Hc. apply H2, Hkl.
  Qed.

  (** ** Appending *)
  Lemma div_prev c : 1 <= c -> (c - 1) / cs = if (c mod cs =? 0) then c / cs - 1 else c / cs.
  Proof.
    intros Hc. destruct (pos_split cs Hcs c) as [E Hm]. pose proof (cs_pos cs Hcs).
    destruct (N.eqb_spec (c mod cs) 0) as [H0|H0].
    - assert (1 <= c / cs). { destruct (N.eq_dec (c / cs) 0) as [Z|]; [rewrite Z in E|]; lia. }
      replace (c - 1) with ((c / cs - 1) * cs + (cs - 1)). { apply pos_join; [exact Hcs|lia]. }
      rewrite N.mul_sub_distr_r, N.mul_1_l. assert (cs <= c / cs * cs).
      { rewrite <- (N.mul_1_l cs) at 1. apply N.mul_le_mono_r. lia. } lia.
    - replace (c - 1) with (c / cs * cs + (c mod cs - 1)) by lia. apply pos_join; [exact Hcs|lia].
  Qed.
  (** The state between making room and writing the entry. *)
  Record mid (c : N) (n : cfn) (m : labs) : Prop := {
    mi_size : cfn_size n = c + 1;
    mi_len : vlen (cfn_ptrs n) = c / cs;
    mi_owns : owns (flook n) (cfn_heap n) (fblocks c m);
    mi_bytes : cfn_bytes n = w64 (released c m (c / cs)) }.
  Lemma fblocks_none c m i : c <= i * cs -> fblocks c m i = None.
  Proof. intros H. unfold fblocks. destruct (N.ltb_spec (i * cs) c); [lia|reflexivity]. Qed.

  Lemma next_slot_ok c n m : cfn_rep c n m -> c + 1 < 2 ^ 57 -> exists n1, next_slot cs n = Ret n1 /\ mid c n1 m /\
    (forall i, i < (c - 1) / cs -> flook n1 i = flook n i).
  Proof.
    intros R Hc. destruct (pos_split cs Hcs c) as [Ex Hm]. pose proof (cs_pos cs Hcs).
    assert (Hadd : add64 (cfn_size n) 1 = c + 1).
    { unfold add64. rewrite (fr_size _ _ _ R). apply w64_small, fits_64. lia. }
    unfold next_slot, decompose_value. rewrite Hadd, (fr_size _ _ _ R).
    destruct (negb (c / cs =? 0) && (c mod cs =? 0)) eqn:Ecase.
    - apply andb_true_iff in Ecase as [E1 E2]. apply negb_true_iff, N.eqb_neq in E1. apply N.eqb_eq in E2.
      assert (Hc1 : 1 <= c). { destruct (N.eq_dec c 0) as [->|]; [rewrite N.div_0_l in E1; lia|lia]. }
      pose proof (fr_len _ _ _ R) as Hlen. rewrite (div_prev c Hc1), E2, N.eqb_refl in Hlen.
      pose proof (fr_owns _ _ _ R) as Ro.
      assert (Hin : c - 1 < c) by lia.
      assert (Hdp : (c - 1) / cs = c / cs - 1). { rewrite (div_prev c Hc1), E2. reflexivity. }
      assert (Hlk : flook n (c / cs - 1) = cfn_buf n).
      { unfold flook. rewrite Hlen. destruct (N.ltb_spec (c / cs - 1) (c / cs - 1)); [lia|]. rewrite N.eqb_refl. reflexivity. }
      destruct (rep_at c n m (c - 1) R Hin) as (id & Hid & Hf). rewrite Hdp, Hlk in Hid. rewrite Hdp in Hf.
      destruct (fblocks c m (c / cs - 1)) as [blk|] eqn:Eb.
      2:{ pose proof (fblock_at c m (c - 1) Hin) as E. rewrite Hdp, Eb in E. discriminate. }
      assert (Hrel : release_buf (mkCFN (cfn_ptrs n) (cfn_buf n) (c + 1) (cfn_bytes n) (cfn_heap n)) =
        Ret (mkCFN (vpush (cfn_ptrs n) (Some (h_next (cfn_heap n)))) None (c + 1)
          (add64 (cfn_bytes n) (N.of_nat (length blk)))
          (hp_free_opt (hp_push (cfn_heap n) blk) (cfn_buf n)))).
      { unfold release_buf, buf_bytes. cbn [cfn_buf cfn_ptrs cfn_heap cfn_bytes cfn_size]. rewrite Hid. unfold hp_block.
        rewrite Hf, bind_ret. rewrite fill_exact by reflexivity. rewrite bind_ret, hp_alloc_eq.
        rewrite hp_delete_push by (intros id' [= <-]; rewrite Hf; eauto). reflexivity. }
      rewrite Hrel. eexists. split; [reflexivity|]. set (n1 := mkCFN _ _ _ _ _).
        assert (Hn1 : forall i, flook n1 i = if i =? c / cs - 1 then Some (h_next (cfn_heap n)) else flook n i).
        { intros i. unfold flook, n1. cbn [cfn_ptrs cfn_buf]. rewrite vlen_push, vnth_push, Hlen.
          replace (c / cs - 1 + 1) with (c / cs) by lia.
          destruct (N.eqb_spec i (c / cs - 1)) as [->|Hne].
          - destruct (N.ltb_spec (c / cs - 1) (c / cs)); [reflexivity|lia].
          - destruct (N.ltb_spec i (c / cs)), (N.ltb_spec i (c / cs - 1)); try lia; try reflexivity.
            destruct (i =? c / cs); reflexivity. }
      split. 2:{ intros i Hi. rewrite Hn1, (proj2 (N.eqb_neq _ _)); [reflexivity|]. rewrite Hdp in Hi. apply N.lt_neq, Hi. }
      split; unfold n1 in *; cbn [cfn_size cfn_ptrs cfn_heap cfn_bytes cfn_buf].
      + reflexivity.
      + rewrite vlen_push, Hlen. clear -E1. generalize dependent (c / cs). intros z Hz. lia.
      + rewrite <- Hlk. rewrite <- Hlk in Hn1. apply (owns_replace (flook n) _ _ (fblocks c m) _ (c / cs - 1) blk Ro).
        * intros j Hj. rewrite Hn1, (proj2 (N.eqb_neq _ _) Hj). auto.
        * rewrite Hn1, N.eqb_refl. reflexivity.
        * exact Eb.
        * intros j. apply N.eq_dec.
      + rewrite (fr_bytes _ _ _ R), Hdp. unfold add64. rewrite w64_add_l. f_equal. unfold released.
        replace (N.to_nat (c / cs)) with (S (N.to_nat (c / cs - 1))) by lia. cbn [sumn]. rewrite N2Nat.id, Eb. reflexivity.
    - exists (mkCFN (cfn_ptrs n) (cfn_buf n) (c + 1) (cfn_bytes n) (cfn_heap n)). split; [reflexivity|].
      assert (Hdp : (c - 1) / cs = c / cs).
      { destruct (N.eq_dec c 0) as [->|Hc0]; [reflexivity|]. rewrite div_prev by lia.
        destruct (N.eqb_spec (c mod cs) 0) as [E2|]; [|reflexivity].
        rewrite andb_true_r in Ecase. apply negb_false_iff, N.eqb_eq in Ecase. rewrite Ecase. reflexivity. }
      split; [|reflexivity]. split; cbn [cfn_size cfn_ptrs cfn_heap cfn_bytes].
      + reflexivity.
      + rewrite <- Hdp. apply (fr_len _ _ _ R).
      + apply (fr_owns _ _ _ R).
      + rewrite <- Hdp. apply (fr_bytes _ _ _ R).
  Qed.

  Lemma fblocks_ext c m m' i : (forall x, x < c -> m !! x = m' !! x) -> fblocks c m i = fblocks c m' i.
  Proof.
    intros H. unfold fblocks. destruct (N.ltb_spec (i * cs) c); [|reflexivity]. do 2 f_equal. apply fents_ext.
    intros x Hx. apply H. unfold fcount in Hx. lia.
  Qed.
  Lemma fblocks_succ c m i : i <> c / cs -> fblocks (c + 1) m i = fblocks c m i.
  Proof.
    intros Hi. destruct (pos_split cs Hcs c) as [Ex Hm]. pose proof (cs_pos cs Hcs). unfold fblocks.
    destruct (N.lt_ge_cases i (c / cs)) as [Hlt|Hge].
    - assert ((i + 1) * cs <= c / cs * cs) by (apply N.mul_le_mono_r; lia).
      rewrite (proj2 (N.ltb_lt _ c)) by lia. rewrite (proj2 (N.ltb_lt _ (c + 1))) by lia.
      do 3 f_equal. unfold fcount. f_equal. lia.
    - assert ((c / cs + 1) * cs <= i * cs) by (apply N.mul_le_mono_r; lia).
      rewrite (proj2 (N.ltb_ge _ c)) by lia. rewrite (proj2 (N.ltb_ge _ (c + 1))) by lia. reflexivity.
  Qed.
  Lemma fblocks_new c m : fblocks (c + 1) m (c / cs) =
    Some (encs (fents m (c / cs * cs) (N.to_nat (c mod cs))) ++ enc (fcell (m !! c))).
  Proof.
    destruct (pos_split cs Hcs c) as [Ex Hm]. rewrite (fblock_at (c + 1) m c) by lia.
    assert (Hz : (fcount (c + 1) (c / cs) - N.to_nat (c mod cs) - 1 = 0)%nat) by (unfold fcount; lia).
    rewrite Hz. simpl. rewrite app_nil_r. reflexivity.
  Qed.
  Lemma mid_buf c n m : mid c n m -> c + 1 < 2 ^ 57 ->
    buf_bytes n = Ret (encs (fents m (c / cs * cs) (N.to_nat (c mod cs)))) /\ flook n (c / cs) = cfn_buf n.
  Proof.
    intros M Hc. destruct (pos_split cs Hcs c) as [Ex Hm]. pose proof (cs_pos cs Hcs).
    assert (Hl : flook n (c / cs) = cfn_buf n).
    { unfold flook. rewrite (mi_len _ _ _ M). destruct (N.ltb_spec (c / cs) (c / cs)); [lia|]. rewrite N.eqb_refl. reflexivity. }
    split; [|exact Hl]. unfold buf_bytes. rewrite <- Hl. destruct (flook n (c / cs)) as [id|] eqn:E.
    - destruct (ow_some _ _ _ (mi_owns _ _ _ M) _ _ E) as (blk & Hf & Hb). unfold hp_block. rewrite Hf. f_equal.
      unfold fblocks in Hb. destruct (_ <? _) eqn:El; [|discriminate]. injection Hb as <-. unfold fcount. do 2 f_equal. lia.
    - apply (ow_none _ _ _ (mi_owns _ _ _ M)) in E. unfold fblocks in E. destruct (N.ltb_spec (c / cs * cs) c); [discriminate|].
      replace (N.to_nat (c mod cs)) with O by lia. reflexivity.
  Qed.
  (** Writing an entry into the buffer. *)
  Lemma set_buf_ok c n m m' : mid c n m -> c + 1 < 2 ^ 57 -> (forall x, x < c -> m' !! x = m !! x) -> goodm vs (c + 1) m' ->
    let bytes := encs (fents m (c / cs * cs) (N.to_nat (c mod cs))) ++ enc (fcell (m' !! c)) in
    exists n', set_buf n bytes = Ret (h_next (cfn_heap n), n') /\ cfn_rep (c + 1) n' m' /\
      flook n' (c / cs) = Some (h_next (cfn_heap n)) /\ (forall i, i <> c / cs -> flook n' i = flook n i).
  Proof.
    intros M Hc Hm' G bytes. destruct (pos_split cs Hcs c) as [Ex Hm].
    destruct (mid_buf c n m M Hc) as [_ Hl]. unfold set_buf. rewrite hp_alloc_eq.
    rewrite hp_delete_push.
    2:{ intros id Hid. rewrite <- Hl in Hid. destruct (ow_some _ _ _ (mi_owns _ _ _ M) _ _ Hid) as (blk & Hf & _). eauto. }
    rewrite bind_ret. eexists. split; [reflexivity|].
    set (n' := mkCFN _ _ _ _ _).
    assert (Hn' : forall i, flook n' i = if i =? c / cs then Some (h_next (cfn_heap n)) else flook n i).
    { intros i. unfold flook, n'. cbn [cfn_ptrs cfn_buf]. rewrite (mi_len _ _ _ M).
      destruct (N.eqb_spec i (c / cs)) as [->|Hne]; [|reflexivity].
      destruct (N.ltb_spec (c / cs) (c / cs)); [lia|reflexivity]. }
    assert (Hsub : c + 1 - 1 = c) by lia.
    assert (Hoth : forall i, i <> c / cs -> fblocks (c + 1) m' i = fblocks c m i).
    { intros i Hi. rewrite fblocks_succ by exact Hi. apply fblocks_ext, Hm'. }
    split; [|split; [rewrite Hn', N.eqb_refl; reflexivity|intros i Hi; rewrite Hn', (proj2 (N.eqb_neq _ _) Hi); reflexivity]].
    split; cbn [cfn_size cfn_ptrs cfn_heap cfn_bytes n']; rewrite ?Hsub.
    - apply (mi_size _ _ _ M).
    - exact Hc.
    - apply (mi_len _ _ _ M).
    - exact G.
    - rewrite <- Hl. apply (owns_replace (flook n) _ _ (fblocks c m) _ (c / cs) bytes (mi_owns _ _ _ M)).
      + intros j Hj. rewrite Hn', (proj2 (N.eqb_neq _ _) Hj). auto.
      + rewrite Hn', N.eqb_refl. reflexivity.
      + rewrite fblocks_new. unfold bytes. do 3 f_equal. apply fents_ext. intros x Hx. apply Hm'. lia.
      + intros j. apply N.eq_dec.
    - rewrite (mi_bytes _ _ _ M). f_equal. unfold released. apply sumn_ext. intros i Hi. rewrite Hoth by lia. reflexivity.
  Qed.

  Lemma goodm_mono c c' m : goodm vs c m -> c <= c' -> goodm vs c' m.
  Proof. intros G Hc x l v E. destruct (G x l v E) as (Hx & H). split; [lia|exact H]. Qed.
  (** Groups that are full when another label arrives do not change any more. *)
  Lemma closed_keeps c n m n' m' : cfn_rep c n m -> cfn_rep (c + 1) n' m' -> (forall x, x < c -> m' !! x = m !! x) ->
    (forall i, i < (c - 1) / cs -> flook n' i = flook n i) ->
    forall y q, y / cs < (cfn_size n - 1) / cs /\ cfn_pt n y q -> y / cs < (cfn_size n' - 1) / cs /\ cfn_pt n' y q.
  Proof.
    intros R R' Hm Hlk y q [Hy Hq]. rewrite (fr_size _ _ _ R) in Hy. rewrite (fr_size _ _ _ R').
    pose proof (cs_pos cs Hcs). split.
    { eapply N.lt_le_trans; [exact Hy|]. apply N.div_le_mono; lia. }
    destruct (fpt_some c n m y q R Hq) as (l & v & E). destruct (fr_good _ _ _ R y l v E) as (Hyc & _).
    destruct (rep_at c n m y R Hyc) as (id & Hid & _).
    apply (fpt_iff c n m y l v id q R E Hid) in Hq as ->.
    apply (fpt_iff (c + 1) n' m' y l v id _ R'); [rewrite Hm by exact Hyc; exact E|rewrite Hlk by exact Hy; exact Hid|].
    unfold fvoff. destruct (pos_split cs Hcs y) as [Ey Hmy]. rewrite (fents_ext m' m); [reflexivity|]. intros x Hx. apply Hm. lia.
  Qed.
  Lemma prev_lt c i : i < (c - 1) / cs -> i <> c / cs.
  Proof.
    intros Hi. pose proof (cs_pos cs Hcs). assert ((c - 1) / cs <= c / cs) by (apply N.div_le_mono; lia). lia.
  Qed.
  Definition cfn_tok : cfn -> N -> N + ptr -> Prop :=
    @tok (cfn_ops cs vs) true (fun c x => x / cs < (c - 1) / cs) cfn_pt.
  Lemma cfn_append_ok c n m k : cfn_rep c n m -> c + 1 < 2 ^ 57 -> small vs k ->
    exists p n', cfn_append cs vs n k = Ret (p, n') /\ cfn_rep (c + 1) n' (<[c := (k, zeros vs)]> m) /\ cfn_pt n' c p /\
      (forall y q, cfn_tok n y q -> cfn_tok n' y q).
  Proof.
    intros R Hc Hsm. destruct (pos_split cs Hcs c) as [Ex Hm].
    destruct (next_slot_ok c n m R Hc) as (n1 & E1 & M & Hold). destruct (mid_buf c n1 m M Hc) as [Eb Hl].
    assert (Hz : length (zeros vs) = vs) by (unfold zeros; apply repeat_length).
    pose proof (stored_le k) as Hst. pose proof (body_len vs k (zeros vs) Hz) as Hbl.
    assert (Hfit : N.of_nat (length (body (k, zeros vs))) < 2 ^ 64) by (eapply body_fits; eassumption).
    assert (G : goodm vs (c + 1) (<[c := (k, zeros vs)]> m)).
    { apply goodm_insert; try assumption; [|lia]. eapply goodm_mono; [apply (fr_good _ _ _ R)|lia]. }
    destruct (set_buf_ok c n1 m (<[c := (k, zeros vs)]> m) M Hc) as (n' & S1 & S2 & S3 & S4).
    { intros x Hx. apply lookup_insert_ne. lia. } { exact G. }
    rewrite lookup_insert in *. cbn [fcell] in *.
    unfold cfn_append. rewrite E1, bind_ret, Eb, bind_ret.
    assert (Hsum : add64 (N.of_nat (length (stored_label k))) (N.of_nat vs) = N.of_nat (length (body (k, zeros vs)))).
    { unfold add64. rewrite Hbl. apply w64_small. rewrite <- Hbl. exact Hfit. }
    rewrite Hsum, vbyte_append_ok by exact Hfit. rewrite bind_ret. cbn [fst].
    set (A := encs (fents m (c / cs * cs) (N.to_nat (c mod cs)))) in *.
    replace ((A ++ vb (N.of_nat (length (body (k, zeros vs))))) ++ stored_label k ++ zeros vs) with (A ++ enc (body (k, zeros vs)))
      by (rewrite <- app_assoc; reflexivity).
    rewrite S1, bind_ret.
    eexists _, n'. split; [reflexivity|]. split; [exact S2|]. split.
    2:{ intros y [z|q]; [exact (fun H => H)|]. apply (closed_keeps c n m n' _ R S2); [intros x Hx; apply lookup_insert_ne; lia|].
        intros i Hi. rewrite S4 by apply prev_lt, Hi. apply Hold, Hi. }
    apply (fpt_iff (c + 1) n' _ c k (zeros vs) (h_next (cfn_heap n1)) _ S2); [apply lookup_insert|exact S3|].
    f_equal. unfold fvoff. rewrite (fents_ext _ m) by (intros x Hx; apply lookup_insert_ne; lia). fold A.
    rewrite app_length. pose proof (enc_length (body (k, zeros vs))) as Hel. rewrite <- Hbl. lia.
  Qed.
  Lemma cfn_dummy_ok c n m : cfn_rep c n m -> c + 1 < 2 ^ 57 ->
    exists n', cfn_append_dummy cs n = Ret n' /\ cfn_rep (c + 1) n' m /\ (forall y q, cfn_tok n y q -> cfn_tok n' y q).
  Proof.
    intros R Hc. destruct (next_slot_ok c n m R Hc) as (n1 & E1 & M & Hold). destruct (mid_buf c n1 m M Hc) as [Eb Hl].
    destruct (set_buf_ok c n1 m m M Hc) as (n' & S1 & S2 & S3 & S4); [reflexivity|eapply goodm_mono; [apply (fr_good _ _ _ R)|lia]|].
    unfold cfn_append_dummy. rewrite E1, bind_ret, Eb, bind_ret, vbyte_append_ok by reflexivity. rewrite bind_ret. cbn [fst].
    destruct (m !! c) as [[l v]|] eqn:E; [destruct (fr_good _ _ _ R c l v E) as (Hx & _); lia|].
    cbn [fcell] in S1. exists n'. split; [|split; [exact S2|]].
    2:{ intros y [z|q]; [exact (fun H => H)|]. apply (closed_keeps c n m n' m R S2); [reflexivity|].
        intros i Hi. rewrite S4 by apply prev_lt, Hi. apply Hold, Hi. }
    unfold enc in S1. rewrite app_nil_r in S1. change (N.of_nat (length [])) with 0 in S1. rewrite S1. reflexivity.
  Qed.

  (** ** Reading and writing values *)
  Lemma fblock_shape c m x l v : x < c -> m !! x = Some (l, v) -> length v = vs ->
    exists rest, fblocks c m (x / cs) =
      Some ((encs (fents m (x / cs * cs) (N.to_nat (x mod cs))) ++ vb (N.of_nat (length (stored_label l)) + N.of_nat vs) ++ stored_label l) ++ v ++ rest) /\
      (forall w, length w = vs -> fblocks c (<[x := (l, w)]> m) (x / cs) =
      Some ((encs (fents m (x / cs * cs) (N.to_nat (x mod cs))) ++ vb (N.of_nat (length (stored_label l)) + N.of_nat vs) ++ stored_label l) ++ w ++ rest)).
  Proof.
    intros Hx E Hv. destruct (pos_split cs Hcs x) as [Ex Hm].
    exists (encs (fents m (x + 1) (fcount c (x / cs) - N.to_nat (x mod cs) - 1))).
    assert (Hb : forall w, length w = vs -> enc (body (l, w)) =
      (vb (N.of_nat (length (stored_label l)) + N.of_nat vs) ++ stored_label l) ++ w).
    { intros w Hw. unfold enc. rewrite (body_len vs l w Hw). unfold body. cbn [fst snd]. apply app_assoc. }
    split.
    - rewrite fblock_at by exact Hx. rewrite E. cbn [fcell]. rewrite Hb by exact Hv. rewrite <- !app_assoc. reflexivity.
    - intros w Hw. rewrite fblock_at by exact Hx. rewrite lookup_insert. cbn [fcell]. rewrite Hb by exact Hw.
      rewrite (fents_ext _ m (x / cs * cs)) by (intros y Hy; apply lookup_insert_ne; lia).
      rewrite (fents_ext _ m (x + 1)) by (intros y Hy; apply lookup_insert_ne; lia).
      rewrite <- !app_assoc. reflexivity.
  Qed.
  Lemma fvoff_len m x l : fvoff m x l =
    N.of_nat (length (encs (fents m (x / cs * cs) (N.to_nat (x mod cs))) ++ vb (N.of_nat (length (stored_label l)) + N.of_nat vs) ++ stored_label l)).
  Proof. unfold fvoff. rewrite !app_length. lia. Qed.
  Lemma cfn_read_ok c n m x p : cfn_rep c n m -> cfn_pt n x p ->
    exists l v, m !! x = Some (l, v) /\ hp_read (cfn_heap n) p vs = Ret v.
  Proof.
    intros R Hp. destruct (fpt_some c n m x p R Hp) as (l & v & E). exists l, v. split; [exact E|].
    destruct (fr_good _ _ _ R x l v E) as (Hx & Hv & _). destruct (rep_at c n m x R Hx) as (id & Hid & Hf).
    apply (fpt_iff c n m x l v id p R E Hid) in Hp as ->. destruct (fblock_shape c m x l v Hx E Hv) as (rest & Es & _).
    rewrite fvoff_len. eapply read_app; [rewrite <- Es; exact Hf|exact Hv].
  Qed.
  Lemma fents_lens m x l v w base n : m !! x = Some (l, v) -> length v = length w ->
    length (encs (fents (<[x := (l, w)]> m) base n)) = length (encs (fents m base n)).
  Proof.
    intros E Hw. induction n as [|n IH]; [reflexivity|]. simpl. rewrite !encs_app, !app_length, IH, !encs_one. f_equal.
    destruct (decide (base + N.of_nat n = x)) as [->|Hne].
    - rewrite lookup_insert, E. cbn [fcell]. apply Nat2N.inj. rewrite !enc_length. unfold body. cbn [fst snd].
      rewrite !app_length, Hw. reflexivity.
    - rewrite lookup_insert_ne by congruence. reflexivity.
  Qed.
  Lemma fblocks_lens c m x l v w i : m !! x = Some (l, v) -> length v = length w ->
    olen (fblocks c (<[x := (l, w)]> m) i) = olen (fblocks c m i).
  Proof.
    intros E Hw. unfold fblocks. destruct (_ <? _); [|reflexivity]. cbn [olen]. f_equal. eapply fents_lens; eassumption.
  Qed.
  Lemma cfn_write_ok c n m x p l v w : cfn_rep c n m -> cfn_pt n x p -> m !! x = Some (l, v) -> length w = vs ->
    exists h, hp_write (cfn_heap n) p w = Ret h /\
      let n' := mkCFN (cfn_ptrs n) (cfn_buf n) (cfn_size n) (cfn_bytes n) h in
      cfn_rep c n' (<[x := (l, w)]> m) /\ (forall y q, cfn_pt n y q -> cfn_pt n' y q).
  Proof.
    intros R Hp E Hw. destruct (fr_good _ _ _ R x l v E) as (Hx & Hv & Hs).
    destruct (rep_at c n m x R Hx) as (id & Hid & Hf).
    apply (fpt_iff c n m x l v id p R E Hid) in Hp as ->. destruct (fblock_shape c m x l v Hx E Hv) as (rest & Es & Ew).
    rewrite fvoff_len. rewrite Es in Hf. rewrite (write_app _ _ _ _ _ w Hf) by congruence.
    eexists. split; [reflexivity|]. set (h' := mkHeap _ _). cbv zeta. set (n' := mkCFN _ _ _ _ h').
    assert (R' : cfn_rep c n' (<[x := (l, w)]> m)).
    { split; unfold n'; cbn [cfn_size cfn_ptrs cfn_heap cfn_bytes cfn_buf].
      - apply (fr_size _ _ _ R).
      - apply (fr_lim _ _ _ R).
      - apply (fr_len _ _ _ R).
      - apply goodm_insert; try assumption. apply (fr_good _ _ _ R).
      - apply (owns_write (flook n) (cfn_heap n) (fblocks c m) _ (x / cs) id _ (fr_owns _ _ _ R) Hid).
        + intros j Hj. unfold fblocks. destruct (N.ltb_spec (j * cs) c); [|reflexivity]. do 2 f_equal. apply fents_ext.
          intros y Hy. apply lookup_insert_ne. intros ->. apply Hj.
          replace y with (j * cs + (y - j * cs)) by lia. symmetry. apply pos_join; [exact Hcs|]. unfold fcount in Hy. lia.
        + apply Ew, Hw.
        + intros j. apply N.eq_dec.
      - rewrite (fr_bytes _ _ _ R). f_equal. unfold released. apply sumn_ext. intros i _. symmetry.
        eapply fblocks_lens; [exact E|congruence]. }
    split; [exact R'|]. intros y q Hq. destruct (fpt_some c n m y q R Hq) as (l1 & v1 & E1).
    destruct (fr_good _ _ _ R y l1 v1 E1) as (Hy & _). destruct (rep_at c n m y R Hy) as (id1 & Hid1 & _).
    apply (fpt_iff c n m y l1 v1 id1 q R E1 Hid1) in Hq as ->.
    assert (exists v2, <[x := (l, w)]> m !! y = Some (l1, v2)) as (v2 & E2).
    { destruct (decide (x = y)) as [->|Hne].
      - rewrite lookup_insert. exists w. congruence.
      - rewrite lookup_insert_ne by congruence. eauto. }
    apply (fpt_iff c n' _ y l1 v2 id1 _ R' E2); [exact Hid1|].
    unfold fvoff. rewrite (fents_lens m x l v w) by congruence. reflexivity.
  Qed.

  Lemma cfn_new_ok b : 16 <= b <= 56 -> exists n, cfn_new b = Ret n /\ cfn_rep 0 n ∅.
  Proof.
    intros Hb. pose proof (cs_pos cs Hcs). unfold cfn_new. rewrite (proj2 (N.ltb_lt b 64)) by lia. eexists. split; [reflexivity|].
    assert (Hl : forall i, flook cfn_default i = None).
    { intros i. unfold flook, cfn_default. cbn [cfn_ptrs cfn_buf]. rewrite vnth_new.
      repeat match goal with |- context [if ?b then _ else _] => destruct b end; reflexivity. }
    split.
    - reflexivity.
    - reflexivity.
    - cbn. rewrite N.div_0_l by lia. reflexivity.
    - intros x l v E. rewrite lookup_empty in E. discriminate.
    - split.
      + intros i id E. rewrite Hl in E. discriminate.
      + intros i _. apply fblocks_none. lia.
      + intros i j id E. rewrite Hl in E. discriminate.
      + intros id blk E. cbn [cfn_heap cfn_default] in E. rewrite hp_find_empty in E. discriminate.
      + apply hp_ok_empty.
    - rewrite N.div_0_l by lia. reflexivity.
  Qed.

  Lemma cfn_ok : flnm_ok (cfn_ops cs vs) (@tok (cfn_ops cs vs) true (fun c x => x / cs < (c - 1) / cs) cfn_pt) cfn_rep cfn_pt.
  Proof.
    split; cbn [n_new n_compare n_append n_append_dummy n_heap n_set_heap n_vs n_size cfn_ops].
    - apply cfn_new_ok.
    - intros c n m R. apply (fr_size _ _ _ R).
    - intros c n m x k l v. apply cfn_compare_ok.
    - apply cfn_append_ok.
    - apply cfn_dummy_ok.
    - intros c n m x [l v] R E. apply (fr_good _ _ _ R x l v E).
    - apply cfn_read_ok.
    - intros c n m x p l v w R Hp Hm Hw. destruct (cfn_write_ok c n m x p l v w R Hp Hm Hw) as (h & E & R' & Hk).
      exists h. split; [exact E|]. split; [exact R'|]. split; [exact Hk|].
      intros y [z|q]; [exact (fun H => H)|]. intros [H1 H2]. split; [exact H1|apply Hk, H2].
  Qed.
End cfn.
