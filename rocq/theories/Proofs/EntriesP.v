(** Buffers of length-prefixed entries: skipping, splitting, comparing. *)
From Verif.Model Require Export CompactNlm.
From Verif.Proofs Require Export BaseP HeapP KeyP VByteP.
Local Open Scope N_scope.

(** An entry with contents [b]. *)
Definition enc (b : list N) : list N := vb (N.of_nat (length b)) ++ b.
Definition encs (bs : list (list N)) : list N := concat (map enc bs).
Definition fits (b : list N) : Prop := N.of_nat (length b) < 2 ^ 64.

Lemma encs_app a b : encs (a ++ b) = encs a ++ encs b.
Proof. unfold encs. rewrite map_app, concat_app. reflexivity. Qed.
Lemma encs_one b : encs [b] = enc b.
Proof. unfold encs. simpl. apply app_nil_r. Qed.
Lemma enc_nonempty b : enc b <> [].
Proof. unfold enc. pose proof (vb_nonempty (N.of_nat (length b))). destruct (vb _); simpl in *; [lia|discriminate]. Qed.
Lemma skipn_app_exact {A} (a b : list A) n : n = N.of_nat (length a) -> skipn (N.to_nat n) (a ++ b) = b.
Proof. intros ->. rewrite Nat2N.id. rewrite skipn_app, skipn_all, Nat.sub_diag. reflexivity. Qed.
Lemma decode_enc a b rest : fits b ->
  vbyte_decode (skipn (N.to_nat (N.of_nat (length a))) (a ++ enc b ++ rest)) =
  Ret (N.of_nat (length b), N.of_nat (length (vb (N.of_nat (length b))))).
Proof.
  intros Hb. rewrite skipn_app_exact by reflexivity. unfold enc. rewrite <- app_assoc. apply vbyte_decode_ok, Hb.
Qed.
Lemma enc_length b : N.of_nat (length (enc b)) = N.of_nat (length (vb (N.of_nat (length b)))) + N.of_nat (length b).
Proof. unfold enc. rewrite app_length. lia. Qed.

(** Skipping the first entries. *)
Lemma skip_ok a rest : Forall fits a -> N.of_nat (length a) < 2 ^ 64 ->
  skip_entries (encs a ++ rest) (N.of_nat (length a)) = Ret (N.of_nat (length (encs a))).
Proof.
  intros Hf Hl. unfold skip_entries. apply wp_eq.
  apply wp_for_range with (I := fun i off => exists x y, a = x ++ y /\ N.of_nat (length x) = i /\ off = N.of_nat (length (encs x))).
  - lia.
  - exact Hl.
  - exists [], a. auto.
  - intros i off Hi (x & y & -> & Hx & ->). destruct y as [|b y].
    { rewrite app_nil_r in Hi. lia. }
    apply Forall_app in Hf as [_ Hf]. inversion_clear Hf as [|? ? Hb _].
    rewrite encs_app. change (b :: y) with ([b] ++ y). rewrite encs_app, encs_one, <- !app_assoc.
    rewrite (decode_enc (encs x) b (encs y ++ rest)) by exact Hb. rewrite bind_ret. apply wp_ret.
    exists (x ++ [b]), y. rewrite <- app_assoc. split; [reflexivity|]. split; [rewrite app_length; simpl; lia|].
    rewrite encs_app, encs_one, app_length. cbn [fst snd]. pose proof (enc_length b). lia.
  - intros off (x & y & E & Hx & ->). assert (y = []) as ->.
    { apply (f_equal (@length _)) in E. rewrite app_length in E. destruct y; [reflexivity|simpl in E; lia]. }
    rewrite app_nil_r in E. subst. reflexivity.
Qed.

(** The part of [compare] after locating the entry. *)
Lemma label_cmp_eq s rest i : label_cmp (s ++ [0]) (s ++ rest) (N.of_nat (length s)) i = Ret (true, i + N.of_nat (length s)).
Proof.
  revert i. induction s as [|c s IH]; intros i; simpl.
  - f_equal. f_equal. lia.
  - rewrite N.eqb_refl. replace (N.pos (Pos.of_succ_nat (length s)) - 1) with (N.of_nat (length s)) by lia.
    rewrite IH. do 2 f_equal. lia.
Qed.
(** [a] matches, then the bytes differ ([d = 0] stands for the end of the stored label). *)
Lemma label_cmp_ne a c k l rest i : c <> List.nth 0 (l ++ [0]) 0 ->
  label_cmp (a ++ c :: k) ((a ++ l) ++ rest) (N.of_nat (length (a ++ l))) i = Ret (false, i + N.of_nat (length a)).
Proof.
  intros H. revert i. induction a as [|x a IH]; intros i; simpl.
  - destruct l as [|d l]; simpl in *.
    + rewrite (proj2 (N.eqb_neq _ _) H). do 2 f_equal. lia.
    + rewrite (proj2 (N.eqb_neq _ _) H). do 2 f_equal. lia.
  - rewrite N.eqb_refl. replace (N.pos (Pos.of_succ_nat (length (a ++ l))) - 1) with (N.of_nat (length (a ++ l))) by lia.
    rewrite IH. do 2 f_equal. lia.
Qed.

Lemma stored_okey s : stored_label (s ++ [0]) = s.
Proof.
  unfold stored_label. rewrite app_length. simpl. replace (length s + 1 - 1)%nat with (length s) by lia.
  rewrite firstn_app, firstn_all, Nat.sub_diag. simpl. apply app_nil_r.
Qed.
Lemma stored_nil : stored_label [] = [].
Proof. reflexivity. Qed.

(** Contents of an entry: stored part of the label, then the value. *)
Definition body (e : list N * list N) : list N := stored_label (fst e) ++ snd e.

Lemma entry_compare_ok chk vs id a rest k l v : length v = vs ->
  Forall fits a -> N.of_nat (length a) < 2 ^ 64 -> fits (body (l, v)) ->
  (k = [] /\ l = []) \/ (okey k /\ okey l) ->
  let off := N.of_nat (length (encs a)) + N.of_nat (length (vb (N.of_nat (length (body (l, v)))))) + N.of_nat (length (stored_label l)) in
  (k = l -> exists i, entry_compare chk vs id (encs a ++ enc (body (l, v)) ++ rest) (N.of_nat (length a)) k = Ret (Some (id, off), i)) /\
  (k <> l -> entry_compare chk vs id (encs a ++ enc (body (l, v)) ++ rest) (N.of_nat (length a)) k = Ret (None, N.of_nat (lcp k l))).
Proof.
  intros Hv Ha Hla Hb Hk off. unfold entry_compare. rewrite skip_ok by assumption. rewrite bind_ret.
  rewrite decode_enc by exact Hb. rewrite bind_ret. cbn [fst snd].
  assert (Hskip : skipn (N.to_nat (N.of_nat (length (encs a)) + N.of_nat (length (vb (N.of_nat (length (body (l, v))))))))
     (encs a ++ enc (body (l, v)) ++ rest) = stored_label l ++ (v ++ rest)).
  { unfold enc. rewrite <- app_assoc, app_assoc. rewrite skipn_app_exact.
    - unfold body. cbn [fst snd]. apply app_assoc_reverse.
    - rewrite app_length. lia. }
  assert (Hlen : N.of_nat (length (body (l, v))) = N.of_nat (length (stored_label l)) + N.of_nat vs).
  { unfold body. cbn [fst snd]. rewrite app_length. lia. }
  assert (Hsub : sub64 (N.of_nat (length (body (l, v)))) (N.of_nat vs) = N.of_nat (length (stored_label l))).
  { unfold sub64, UINT64_MAX. unfold fits in Hb. rewrite Hlen in *.
    replace (_ + _) with (N.of_nat (length (stored_label l)) + 1 * 2 ^ 64).
    - rewrite w64_mod, N.mod_add by discriminate. apply N.mod_small. lia.
    - change (2 ^ 64) with 18446744073709551616 in *. lia. }
  destruct Hk as [[-> ->]|[Hk Hl]].
  - split; [|congruence]. intros _. exists 0. unfold off. rewrite stored_nil. simpl length. do 4 f_equal. lia.
  - destruct k as [|k0 k1] eqn:Ek; [destruct (okey_nil Hk)|]. rewrite <- Ek in *. clear Ek k0 k1.
    rewrite assert_true.
    2:{ apply orb_true_iff. right. apply N.leb_le. lia. }
    rewrite bind_ret, Hsub, Hskip. destruct Hl as (s' & -> & Hs'). rewrite stored_okey in *.
    destruct Hk as (s & -> & Hs). split.
    + intros E. apply app_inv_tail in E as <-. rewrite label_cmp_eq, bind_ret. cbn [fst snd]. eexists.
      unfold off. rewrite stored_okey. reflexivity.
    + intros Hne. destruct (okey_diff (s ++ [0]) (s' ++ [0])) as (p & c & d & k' & l' & E1 & E2 & Hcd & Hlcp).
      { exists s. auto. } { exists s'. auto. } { exact Hne. }
      rewrite E1 at 1.
      assert (exists t, s' = p ++ t /\ c <> List.nth 0 (t ++ [0]) 0) as (t & -> & Ht).
      { exists (skipn (length p) s'). assert (Hp : (length p <= length s')%nat).
        { apply (f_equal (@length _)) in E2. rewrite !app_length in E2. simpl in E2. lia. }
        assert (Es : s' = p ++ skipn (length p) s').
        { rewrite <- (firstn_skipn (length p) s') at 1. f_equal.
          apply (f_equal (firstn (length p))) in E2. rewrite !firstn_app in E2.
          replace (length p - length s')%nat with O in E2 by lia. rewrite Nat.sub_diag in E2. simpl in E2.
          rewrite !app_nil_r in E2. rewrite E2. apply firstn_all. }
        split; [exact Es|]. rewrite Es, <- app_assoc in E2. apply app_inv_head in E2. rewrite E2. exact Hcd. }
      rewrite label_cmp_ne by exact Ht. rewrite bind_ret. cbn [fst snd]. rewrite Hlcp. reflexivity.
Qed.

(** The same for a key that goes on after its first NUL. *)
Lemma label_cmp_eq_ext s z rest i :
  label_cmp (s ++ 0 :: z) (s ++ rest) (N.of_nat (length s)) i = Ret (true, i + N.of_nat (length s)).
Proof.
  revert i. induction s as [|c s IH]; intros i; simpl.
  - f_equal. f_equal. lia.
  - rewrite N.eqb_refl. replace (N.pos (Pos.of_succ_nat (length s)) - 1) with (N.of_nat (length s)) by lia.
    rewrite IH. do 2 f_equal. lia.
Qed.
(** The comparison proper. *)
Lemma entry_compare_do chk vs id a rest l v key : length v = vs ->
  Forall fits a -> N.of_nat (length a) < 2 ^ 64 -> fits (body (l, v)) -> key <> [] ->
  let blk := encs a ++ enc (body (l, v)) ++ rest in
  let off := N.of_nat (length (encs a)) + N.of_nat (length (vb (N.of_nat (length (body (l, v)))))) + N.of_nat (length (stored_label l)) in
  entry_compare chk vs id blk (N.of_nat (length a)) key =
    let* r := label_cmp key (stored_label l ++ v ++ rest) (N.of_nat (length (stored_label l))) 0 in
    if fst r then Ret (Some (id, off), N.of_nat (length (stored_label l)) + 1) else Ret (None, snd r).
Proof.
  intros Hv Ha Hla Hb Hkey blk off.
  assert (Hskip : skipn (N.to_nat (N.of_nat (length (encs a)) + N.of_nat (length (vb (N.of_nat (length (body (l, v))))))))
     (encs a ++ enc (body (l, v)) ++ rest) = stored_label l ++ (v ++ rest)).
  { unfold enc. rewrite <- app_assoc, app_assoc. rewrite skipn_app_exact.
    - unfold body. cbn [fst snd]. apply app_assoc_reverse.
    - rewrite app_length. lia. }
  assert (Hlen : N.of_nat (length (body (l, v))) = N.of_nat (length (stored_label l)) + N.of_nat vs).
  { unfold body. cbn [fst snd]. rewrite app_length. lia. }
  assert (Hsub : sub64 (N.of_nat (length (body (l, v)))) (N.of_nat vs) = N.of_nat (length (stored_label l))).
  { unfold sub64, UINT64_MAX. unfold fits in Hb. rewrite Hlen in *.
    replace (_ + _) with (N.of_nat (length (stored_label l)) + 1 * 2 ^ 64).
    - rewrite w64_mod, N.mod_add by discriminate. apply N.mod_small. lia.
    - change (2 ^ 64) with 18446744073709551616 in *. lia. }
  unfold entry_compare, blk. rewrite skip_ok by assumption. rewrite bind_ret.
  rewrite decode_enc by exact Hb. rewrite bind_ret. cbn [fst snd].
  destruct key as [|c0 r0]; [congruence|]. rewrite assert_true.
  2:{ apply orb_true_iff. right. apply N.leb_le. lia. }
  rewrite bind_ret, Hsub, Hskip. reflexivity.
Qed.
(** A key that ends inside the stored label is read past its end. *)
Lemma label_cmp_short k rest n i : N.of_nat (length k) <= n -> label_cmp k (k ++ rest) n i = UB.
Proof.
  revert n i. induction k as [|c k IH]; intros n i H; [reflexivity|]. simpl in *.
  destruct (N.eqb_spec n 0); [lia|]. rewrite N.eqb_refl. apply IH. lia.
Qed.
Lemma entry_compare_ext chk vs id a rest l v z : length v = vs ->
  Forall fits a -> N.of_nat (length a) < 2 ^ 64 -> fits (body (l, v)) -> olab l ->
  let blk := encs a ++ enc (body (l, v)) ++ rest in
  let off := N.of_nat (length (encs a)) + N.of_nat (length (vb (N.of_nat (length (body (l, v)))))) + N.of_nat (length (stored_label l)) in
  (exists i, entry_compare chk vs id blk (N.of_nat (length a)) l = Ret (Some (id, off), i)) /\
  (forall k, okey k -> okey l -> k <> l ->
     entry_compare chk vs id blk (N.of_nat (length a)) (k ++ z) = Ret (None, N.of_nat (lcp k l))) /\
  (okey l -> exists i, entry_compare chk vs id blk (N.of_nat (length a)) (l ++ z) = Ret (Some (id, off), i)) /\
  (forall c z', l = [] -> z = c :: z' -> exists i,
     entry_compare chk vs id blk (N.of_nat (length a)) z = Ret (if c =? 0 then Some (id, off) else None, i) /\ (c <> 0 -> i = 0)).
Proof.
  intros Hv Ha Hla Hb Hol blk off. split.
  { destruct (entry_compare_ok chk vs id a rest l l v Hv Ha Hla Hb) as [H _]; [|exact (H eq_refl)].
    destruct Hol as [->|H]; auto. }
  assert (Hdo : forall key, key <> [] -> _) by (intros key Hkey; exact (entry_compare_do chk vs id a rest l v key Hv Ha Hla Hb Hkey)).
  fold blk off in Hdo.
  assert (Hkz : forall k, okey k -> k ++ z <> []).
  { intros k Hk. destruct k as [|c k]; [destruct (okey_nil Hk)|]. discriminate. }
  clearbody off. split; [|split].
  - intros k Hk Hl Hne. rewrite (Hdo _ (Hkz k Hk)).
    destruct Hl as (s' & El & Hs'). rewrite El in *. rewrite stored_okey in *.
    destruct Hk as (s & -> & Hs).
    destruct (okey_diff (s ++ [0]) (s' ++ [0])) as (p & c & d & k' & l' & E1 & E2 & Hcd & Hlcp).
    { exists s. auto. } { exists s'. auto. } { exact Hne. }
    assert (exists t, s' = p ++ t /\ c <> List.nth 0 (t ++ [0]) 0) as (t & -> & Ht).
    { exists (skipn (length p) s'). assert (Hp : (length p <= length s')%nat).
      { apply (f_equal (@length _)) in E2. rewrite !app_length in E2. simpl in E2. lia. }
      assert (Es : s' = p ++ skipn (length p) s').
      { rewrite <- (firstn_skipn (length p) s') at 1. f_equal.
        apply (f_equal (firstn (length p))) in E2. rewrite !firstn_app in E2.
        replace (length p - length s')%nat with O in E2 by lia. rewrite Nat.sub_diag in E2. simpl in E2.
        rewrite !app_nil_r in E2. rewrite E2. apply firstn_all. }
      split; [exact Es|]. rewrite Es, <- app_assoc in E2. apply app_inv_head in E2. rewrite E2. exact Hcd. }
    rewrite E1 at 1. rewrite <- (app_assoc p (c :: k') z). simpl ((c :: k') ++ z).
    rewrite label_cmp_ne by exact Ht. rewrite bind_ret. cbn [fst snd]. rewrite Hlcp. reflexivity.
  - intros Hl. rewrite (Hdo _ (Hkz l Hl)).
    destruct Hl as (s' & El & Hs'). rewrite El in *. rewrite stored_okey in *.
    rewrite <- app_assoc. simpl ([0] ++ z). rewrite label_cmp_eq_ext, bind_ret. cbn [fst snd]. eauto.
  - intros c z' El Ez. rewrite Hdo by (rewrite Ez; discriminate). rewrite El, stored_nil, Ez. simpl label_cmp.
    rewrite bind_ret. cbn [fst snd]. destruct (c =? 0) eqn:Ec.
    + eexists. split; [reflexivity|]. intros H. apply N.eqb_eq in Ec. congruence.
    + eexists. split; [reflexivity|]. reflexivity.
Qed.

(** Ownership: the cells [look] own exactly the blocks of the heap; [B] are their contents. *)
Record owns {I} (look : I -> option N) (h : heap) (B : I -> option (list N)) : Prop := {
  ow_some : forall i id, look i = Some id -> exists blk, hp_find h id = Some blk /\ B i = Some blk;
  ow_none : forall i, look i = None -> B i = None;
  ow_inj : forall i j id, look i = Some id -> look j = Some id -> i = j;
  ow_own : forall id blk, hp_find h id = Some blk -> exists i, look i = Some id;
  ow_ok : hp_ok h }.

Lemma owns_free {I} (look look' : I -> option N) h B B' i : owns look h B ->
  (forall j, j <> i -> look' j = look j /\ B' j = B j) -> look' i = None -> B' i = None ->
  (forall j, {j = i} + {j <> i}) ->
  owns look' (hp_free_opt h (look i)) B'.
Proof.
  intros R Hoth Hi Hbi dec. destruct (look i) as [id|] eqn:E; simpl.
  - split.
    + intros j id' Hj. destruct (dec j) as [->|Hne]; [congruence|]. destruct (Hoth j Hne) as [E1 E2].
      rewrite E1 in Hj. rewrite E2, hp_find_free. destruct (N.eqb_spec id' id) as [->|].
      * destruct Hne. eapply (ow_inj _ _ _ R); eassumption.
      * apply (ow_some _ _ _ R j id' Hj).
    + intros j Hj. destruct (dec j) as [->|Hne]; [exact Hbi|]. destruct (Hoth j Hne) as [E1 E2].
      rewrite E2. apply (ow_none _ _ _ R). congruence.
    + intros j k id' Hj Hk. destruct (dec j) as [->|Hj']; [congruence|]. destruct (dec k) as [->|Hk']; [congruence|].
      rewrite (proj1 (Hoth j Hj')) in Hj. rewrite (proj1 (Hoth k Hk')) in Hk.
      eapply (ow_inj _ _ _ R); eassumption.
    + intros id' blk Hf. rewrite hp_find_free in Hf. destruct (N.eqb_spec id' id) as [->|Hne]; [discriminate|].
      destruct (ow_own _ _ _ R _ _ Hf) as [j Hj]. exists j.
      rewrite (proj1 (Hoth j ltac:(congruence))). exact Hj.
    + apply hp_ok_free, (ow_ok _ _ _ R).
  - assert (Hl : forall j, look' j = look j). { intros j. destruct (dec j) as [->|Hne]; [congruence|apply Hoth, Hne]. }
    assert (Hb : forall j, B' j = B j).
    { intros j. destruct (dec j) as [->|Hne]; [rewrite (ow_none _ _ _ R i E); exact Hbi|apply Hoth, Hne]. }
    split.
    + intros j id Hj. rewrite Hb. apply (ow_some _ _ _ R). rewrite <- Hl. exact Hj.
    + intros j Hj. rewrite Hb. apply (ow_none _ _ _ R). rewrite <- Hl. exact Hj.
    + intros j k id Hj Hk. rewrite Hl in Hj, Hk. eapply (ow_inj _ _ _ R); eassumption.
    + intros id blk Hf. destruct (ow_own _ _ _ R _ _ Hf) as [j Hj]. exists j. rewrite Hl. exact Hj.
    + apply (ow_ok _ _ _ R).
Qed.

Lemma owns_push {I} (look look' : I -> option N) h B B' i blk : owns look h B -> look i = None ->
  (forall j, j <> i -> look' j = look j /\ B' j = B j) -> look' i = Some (h_next h) -> B' i = Some blk ->
  (forall j, {j = i} + {j <> i}) ->
  owns look' (hp_push h blk) B'.
Proof.
  intros R E Hoth Hi Hbi dec.
  assert (Hlt : forall j id, look j = Some id -> id < h_next h).
  { intros j id Hj. destruct (ow_some _ _ _ R j id Hj) as (b & Hf & _). apply (ow_ok _ _ _ R _ _ Hf). }
  split.
  - intros j id Hj. rewrite find_push. destruct (dec j) as [->|Hne].
    + rewrite Hi in Hj. injection Hj as <-. rewrite N.eqb_refl. eauto.
    + destruct (Hoth j Hne) as [E1 E2]. rewrite E1 in Hj. rewrite E2. pose proof (Hlt j id Hj).
      destruct (N.eqb_spec id (h_next h)); [lia|]. apply (ow_some _ _ _ R j id Hj).
  - intros j Hj. destruct (dec j) as [->|Hne]; [congruence|]. destruct (Hoth j Hne) as [E1 E2].
    rewrite E2. apply (ow_none _ _ _ R). congruence.
  - intros j k id Hj Hk. destruct (dec j) as [->|Hj']; destruct (dec k) as [->|Hk']; try reflexivity.
    + rewrite (proj1 (Hoth k Hk')) in Hk. pose proof (Hlt _ _ Hk). rewrite Hi in Hj. injection Hj as <-. lia.
    + rewrite (proj1 (Hoth j Hj')) in Hj. pose proof (Hlt _ _ Hj). rewrite Hi in Hk. injection Hk as <-. lia.
    + rewrite (proj1 (Hoth j Hj')) in Hj. rewrite (proj1 (Hoth k Hk')) in Hk.
      eapply (ow_inj _ _ _ R); eassumption.
  - intros id b Hf. rewrite find_push in Hf. destruct (N.eqb_spec id (h_next h)) as [->|Hne]; [eauto|].
    destruct (ow_own _ _ _ R _ _ Hf) as [j Hj]. exists j. rewrite (proj1 (Hoth j ltac:(congruence))). exact Hj.
  - apply hp_ok_push, (ow_ok _ _ _ R).
Qed.

(** Replacing the block of a cell: allocate the new one, release the old one. *)
Lemma owns_replace {I} (look look' : I -> option N) h B B' i blk : owns look h B ->
  (forall j, j <> i -> look' j = look j /\ B' j = B j) -> look' i = Some (h_next h) -> B' i = Some blk ->
  (forall j, {j = i} + {j <> i}) ->
  owns look' (hp_free_opt (hp_push h blk) (look i)) B'.
Proof.
  intros R Hoth Hi Hbi dec.
  assert (Hlt : forall j id, look j = Some id -> id < h_next h).
  { intros j id Hj. destruct (ow_some _ _ _ R j id Hj) as (b & Hf & _). apply (ow_ok _ _ _ R _ _ Hf). }
  destruct (look i) as [id0|] eqn:E; [|simpl; eapply owns_push; eassumption]. simpl.
  pose proof (Hlt _ _ E). split.
  - intros j id Hj. rewrite hp_find_free, find_push. destruct (dec j) as [->|Hne].
    + rewrite Hi in Hj. injection Hj as <-. rewrite N.eqb_refl. destruct (N.eqb_spec (h_next h) id0); [lia|eauto].
    + destruct (Hoth j Hne) as [E1 E2]. rewrite E1 in Hj. rewrite E2. pose proof (Hlt j id Hj).
      destruct (N.eqb_spec id (h_next h)); [lia|]. destruct (N.eqb_spec id id0) as [->|].
      * destruct Hne. eapply (ow_inj _ _ _ R); eassumption.
      * apply (ow_some _ _ _ R j id Hj).
  - intros j Hj. destruct (dec j) as [->|Hne]; [congruence|]. destruct (Hoth j Hne) as [E1 E2].
    rewrite E2. apply (ow_none _ _ _ R). congruence.
  - intros j k id Hj Hk. destruct (dec j) as [->|Hj']; destruct (dec k) as [->|Hk']; try reflexivity.
    + rewrite (proj1 (Hoth k Hk')) in Hk. pose proof (Hlt _ _ Hk). rewrite Hi in Hj. injection Hj as <-. lia.
    + rewrite (proj1 (Hoth j Hj')) in Hj. pose proof (Hlt _ _ Hj). rewrite Hi in Hk. injection Hk as <-. lia.
    + rewrite (proj1 (Hoth j Hj')) in Hj. rewrite (proj1 (Hoth k Hk')) in Hk.
      eapply (ow_inj _ _ _ R); eassumption.
  - intros id b Hf. rewrite hp_find_free in Hf. destruct (N.eqb_spec id id0) as [|Hne0]; [discriminate|].
    rewrite find_push in Hf. destruct (N.eqb_spec id (h_next h)) as [->|Hne]; [eauto|].
    destruct (ow_own _ _ _ R _ _ Hf) as [j Hj]. exists j. rewrite (proj1 (Hoth j ltac:(congruence))). exact Hj.
  - apply hp_ok_free, hp_ok_push, (ow_ok _ _ _ R).
Qed.

(** Overwriting a block in place. *)
Lemma owns_write {I} (look : I -> option N) h B B' i id blk : owns look h B -> look i = Some id ->
  (forall j, j <> i -> B' j = B j) -> B' i = Some blk ->
  (forall j, {j = i} + {j <> i}) ->
  owns look (mkHeap (h_next h) (hp_add h id blk)) B'.
Proof.
  intros R Hi Hoth Hbi dec. split.
  - intros j id' Hj. rewrite find_add. destruct (N.eqb_spec id' id) as [->|Hne].
    + assert (j = i) as -> by (eapply (ow_inj _ _ _ R); eassumption). eauto.
    + rewrite Hoth by congruence. apply (ow_some _ _ _ R j id' Hj).
  - intros j Hj. rewrite Hoth by congruence. apply (ow_none _ _ _ R j Hj).
  - apply (ow_inj _ _ _ R).
  - intros id' b Hf. rewrite find_add in Hf. destruct (N.eqb_spec id' id) as [->|]; [eauto|].
    apply (ow_own _ _ _ R _ _ Hf).
  - intros id' b Hf. rewrite find_add in Hf. cbn [h_next]. destruct (N.eqb_spec id' id) as [->|].
    + destruct (ow_some _ _ _ R i id Hi) as (b' & Hf' & _). apply (ow_ok _ _ _ R _ _ Hf').
    + apply (ow_ok _ _ _ R _ _ Hf).
Qed.

(** Total size of the blocks owned by the first [n] cells. *)
Fixpoint sumn (f : N -> N) (n : nat) : N :=
  match n with O => 0 | S n => sumn f n + f (N.of_nat n) end.
Lemma tr_total_empty t : (forall k, PositiveMap.find k t = None) -> tr_total t = 0.
Proof.
  induction t as [|l IHl o r IHr]; intros H; simpl; [reflexivity|].
  rewrite IHl by (intros k; apply (H (xO k))). rewrite IHr by (intros k; apply (H (xI k))).
  specialize (H xH). simpl in H. rewrite H. reflexivity.
Qed.
Lemma hp_total_none h : (forall id, hp_find h id = None) -> hp_total h = 0.
Proof.
  intros H. apply tr_total_empty. intros k. specialize (H (Pos.pred_N k)). unfold hp_find in H.
  replace (N.succ_pos (Pos.pred_N k)) with k in H; [exact H|]. destruct k; simpl; try reflexivity.
  symmetry. apply Pos.succ_pred_double.
Qed.
Lemma sumn_ext f g n : (forall i, i < N.of_nat n -> f i = g i) -> sumn f n = sumn g n.
Proof. induction n as [|n IH]; intros H; simpl; [reflexivity|]. rewrite IH, H by (intros; try apply H; lia). reflexivity. Qed.
Lemma owns_total n look h B : owns look h B -> (forall i, N.of_nat n <= i -> look i = None) ->
  hp_total h = sumn (fun i => olen (B i)) n.
Proof.
  revert look h B. induction n as [|n IH]; intros look h B R Hn; simpl.
  - apply hp_total_none. intros id. destruct (hp_find h id) as [b|] eqn:E; [|reflexivity].
    destruct (ow_own _ _ _ R _ _ E) as [i Hi]. rewrite Hn in Hi by lia. discriminate.
  - set (look' := fun i => if i =? N.of_nat n then None else look i).
    set (B' := fun i => if i =? N.of_nat n then None else B i).
    assert (R' : owns look' (hp_free_opt h (look (N.of_nat n))) B').
    { apply (owns_free look look' h B B' (N.of_nat n) R).
      - intros j Hj. unfold look', B'. rewrite (proj2 (N.eqb_neq _ _) Hj). auto.
      - unfold look'. rewrite N.eqb_refl. reflexivity.
      - unfold B'. rewrite N.eqb_refl. reflexivity.
      - intros j. destruct (N.eq_dec j (N.of_nat n)); auto. }
    apply IH in R'.
    2:{ intros i Hi. unfold look'. destruct (N.eqb_spec i (N.of_nat n)); [reflexivity|]. apply Hn. lia. }
    rewrite (sumn_ext _ (fun i => olen (B i))) in R'.
    2:{ intros i Hi. unfold B'. destruct (N.eqb_spec i (N.of_nat n)); [lia|reflexivity]. }
    rewrite <- R'. destruct (look (N.of_nat n)) as [id|] eqn:E; simpl.
    + destruct (ow_some _ _ _ R _ _ E) as (b & Hf & ->). pose proof (hp_total_free h id) as Ht. rewrite Hf in Ht. lia.
    + rewrite (ow_none _ _ _ R _ E). simpl. lia.
Qed.
