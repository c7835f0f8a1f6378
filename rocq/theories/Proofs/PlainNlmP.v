(** The plain label stores meet their contracts. *)
From Verif.Model Require Export PlainNlm.
From Verif.Proofs Require Export HeapP KeyP.
From Verif.Proofs Require Import VByteP.
Local Open Scope N_scope.

Lemma plain_cmp_eq k rest i : plain_cmp k (k ++ rest) i = Ret (true, i + N.of_nat (length k)).
Proof.
  revert i. induction k as [|c k IH]; intros i; simpl; [f_equal; f_equal; lia|].
  rewrite N.eqb_refl, IH. do 2 f_equal. lia.
Qed.
Lemma plain_cmp_ne a c d k l rest i : c <> d ->
  plain_cmp (a ++ c :: k) ((a ++ d :: l) ++ rest) i = Ret (false, i + N.of_nat (length a)).
Proof.
  intros H. revert i. induction a as [|x a IH]; intros i; simpl.
  - rewrite (proj2 (N.eqb_neq _ _) H). do 2 f_equal. lia.
  - rewrite N.eqb_refl. rewrite IH. do 2 f_equal. lia.
Qed.

(** [n] labels in [m], found through the pointers [ptrs] into [h]. *)
Record prep (vs : nat) (ptrs : vec (option N)) (h : heap) (bytes : N) (m : gmap N (list N * list N)) : Prop := {
  pr_none : forall x, x < vlen ptrs -> vnth ptrs x = None -> m !! x = None;
  pr_some : forall x id, x < vlen ptrs -> vnth ptrs x = Some id ->
    exists l v, m !! x = Some (l, v) /\ length v = vs /\ hp_find h id = Some (l ++ v);
  pr_dom : forall x e, m !! x = Some e -> x < vlen ptrs;
  pr_inj : forall x y id, x < vlen ptrs -> y < vlen ptrs ->
    vnth ptrs x = Some id -> vnth ptrs y = Some id -> x = y;
  pr_own : forall id blk, hp_find h id = Some blk -> exists x, x < vlen ptrs /\ vnth ptrs x = Some id;
  pr_ok : hp_ok h;
  pr_bytes : bytes = w64 (hp_total h) }.
Definition ppt (vs : nat) (ptrs : vec (option N)) (h : heap) (x : N) (p : ptr) : Prop :=
  x < vlen ptrs /\ vnth ptrs x = Some (fst p) /\
  exists blk, hp_find h (fst p) = Some blk /\ N.of_nat (length blk) = snd p + N.of_nat vs.

Section plain.
  Context (vs : nat).

  Lemma prep_look ptrs h by_ m x l v : prep vs ptrs h by_ m -> m !! x = Some (l, v) ->
    exists id, x < vlen ptrs /\ vnth ptrs x = Some id /\ length v = vs /\ hp_find h id = Some (l ++ v).
  Proof.
    intros R H. pose proof (pr_dom _ _ _ _ _ R _ _ H) as Hx.
    destruct (vnth ptrs x) as [id|] eqn:E.
    - destruct (pr_some _ _ _ _ _ R x id Hx E) as (l' & v' & H' & Hv & Hf). exists id.
      rewrite H in H'. injection H' as <- <-. auto.
    - rewrite (pr_none _ _ _ _ _ R x Hx E) in H. discriminate.
  Qed.

  Lemma plain_compare_ok ptrs h by_ m x k l v : prep vs ptrs h by_ m -> m !! x = Some (l, v) ->
    (k = [] /\ l = []) \/ (okey k /\ okey l) ->
    (k = l -> exists p i, plain_compare ptrs h x k = Ret (Some p, i) /\ ppt vs ptrs h x p) /\
    (k <> l -> plain_compare ptrs h x k = Ret (None, N.of_nat (lcp k l))).
  Proof.
    intros R H Hk. destruct (prep_look _ _ _ _ _ _ _ R H) as (id & Hx & Hp & Hv & Hf).
    unfold plain_compare. rewrite assert_true by (apply N.ltb_lt; exact Hx). rewrite bind_ret.
    rewrite vget_ok by exact Hx. rewrite bind_ret, Hp. unfold hp_block. rewrite Hf, bind_ret.
    split.
    - intros <-. exists (id, N.of_nat (length k)).
      assert (Hpt : ppt vs ptrs h x (id, N.of_nat (length k))).
      { split; [exact Hx|]. split; [exact Hp|]. exists (k ++ v). split; [exact Hf|].
        rewrite app_length, Hv. simpl. lia. }
      destruct k as [|c k]; [exists 0; auto|]. rewrite plain_cmp_eq, bind_ret. simpl fst. simpl snd.
      rewrite N.add_0_l. eauto.
    - intros Hne. destruct Hk as [[-> ->]|[Hk Hl]]; [congruence|].
      destruct (okey_diff k l Hk Hl Hne) as (a & c & d & k' & l' & Ek & El & Hcd & Ha).
      destruct k as [|k0 k1]; [destruct (okey_nil Hk)|]. rewrite Ek at 1. rewrite El at 1.
      rewrite plain_cmp_ne by exact Hcd. rewrite bind_ret. simpl fst. simpl snd. rewrite Ha, N.add_0_l. reflexivity.
  Qed.

  Lemma fill_ok (k : list N) :
    fill (N.of_nat (length k) + N.of_nat vs) (k ++ zeros vs) = Ret (k ++ zeros vs).
  Proof.
    unfold fill. assert (E : length (k ++ zeros vs) = (length k + vs)%nat).
    { rewrite app_length. unfold zeros. rewrite repeat_length. reflexivity. }
    rewrite E. destruct (N.leb_spec (N.of_nat (length k + vs)) (N.of_nat (length k) + N.of_nat vs)); [|lia].
    replace (N.to_nat _ - _)%nat with O by lia. simpl repeat. rewrite app_nil_r. reflexivity.
  Qed.

  Lemma plain_read ptrs h by_ m x p : prep vs ptrs h by_ m -> ppt vs ptrs h x p ->
    exists l v, m !! x = Some (l, v) /\ hp_read h p vs = Ret v.
  Proof.
    intros R (Hx & Hp & blk & Hf & Hl). destruct (pr_some _ _ _ _ _ R x _ Hx Hp) as (l & v & H & Hv & Hf').
    exists l, v. split; [exact H|]. destruct p as [id off]. simpl in *.
    assert (off = N.of_nat (length l)) as ->.
    { rewrite Hf in Hf'. injection Hf' as ->. rewrite app_length in Hl. lia. }
    apply (read_app h id l v []); [|exact Hv]. rewrite app_nil_r. exact Hf'.
  Qed.
  Lemma plain_write ptrs h by_ m x p l v w : prep vs ptrs h by_ m -> ppt vs ptrs h x p ->
    m !! x = Some (l, v) -> length w = vs ->
    exists h', hp_write h p w = Ret h' /\ prep vs ptrs h' by_ (<[x := (l, w)]> m) /\
      (forall y q, ppt vs ptrs h y q -> ppt vs ptrs h' y q).
  Proof.
    intros R (Hx & Hp & blk & Hf & Hl) Hm Hw.
    destruct (prep_look _ _ _ _ _ _ _ R Hm) as (id' & _ & Hp' & Hv & Hf').
    destruct p as [id off]. simpl in *. assert (id' = id) as -> by congruence.
    assert (off = N.of_nat (length l)) as ->.
    { rewrite Hf in Hf'. injection Hf' as ->. rewrite app_length in Hl. lia. }
    assert (E := write_app h id l v [] w). rewrite !app_nil_r in E. rewrite E by (assumption || lia).
    eexists. split; [reflexivity|]. split.
    - split.
      + intros y Hy Hn. rewrite lookup_insert_ne; [|congruence]. apply (pr_none _ _ _ _ _ R y Hy Hn).
      + intros y j Hy Hj. rewrite find_add. destruct (N.eqb_spec j id) as [->|Hne].
        * assert (y = x) as -> by (apply (pr_inj _ _ _ _ _ R y x id); assumption).
          exists l, w. rewrite lookup_insert. auto.
        * rewrite lookup_insert_ne by congruence. apply (pr_some _ _ _ _ _ R y j Hy Hj).
      + intros y e. destruct (decide (y = x)) as [->|Hne]; [intros _; exact Hx|].
        rewrite lookup_insert_ne by congruence. apply (pr_dom _ _ _ _ _ R).
      + apply (pr_inj _ _ _ _ _ R).
      + intros j b. rewrite find_add. destruct (N.eqb_spec j id) as [->|Hne]; [eauto|].
        apply (pr_own _ _ _ _ _ R).
      + intros j b. rewrite find_add. cbn [h_next]. destruct (N.eqb_spec j id) as [->|Hne].
        * intros _. apply (pr_ok _ _ _ _ _ R id _ Hf).
        * apply (pr_ok _ _ _ _ _ R).
      + rewrite (pr_bytes _ _ _ _ _ R). f_equal.
        pose proof (hp_total_add h id (l ++ w) (h_next h)) as Et. rewrite Hf' in Et. simpl olen in Et.
        rewrite !app_length in Et. lia.
    - intros y [j o] (Hy & Hj & b & Hb & Hlb). simpl in *. split; [exact Hy|]. split; [exact Hj|].
      simpl. rewrite find_add. destruct (N.eqb_spec j id) as [->|Hne]; [|eauto].
      exists (l ++ w). split; [reflexivity|]. rewrite Hf' in Hb. injection Hb as <-.
      rewrite !app_length in *. lia.
  Qed.

  (** *** Bonsai store *)
  Definition pbn_rep (P : N) (n : pbn) (m : gmap N (list N * list N)) : Prop :=
    vlen (pbn_ptrs n) = P /\ prep vs (pbn_ptrs n) (pbn_heap n) (pbn_bytes n) m /\
    pbn_size n = w64 (N.of_nat (size m)).
  Definition pbn_pt (n : pbn) (x : N) (p : ptr) : Prop := ppt vs (pbn_ptrs n) (pbn_heap n) x p.

  Lemma prep_new ptrs : (forall x, x < vlen ptrs -> vnth ptrs x = None) -> prep vs ptrs hp_empty 0 ∅.
  Proof.
    intros H. split.
    - intros x _ _. apply lookup_empty.
    - intros x id Hx E. rewrite H in E by exact Hx. discriminate.
    - intros x e E. rewrite lookup_empty in E. discriminate.
    - intros x y id Hx _ E. rewrite H in E by exact Hx. discriminate.
    - intros id blk E. rewrite hp_find_empty in E. discriminate.
    - apply hp_ok_empty.
    - reflexivity.
  Qed.

  Lemma w64_add_l a b : w64 (w64 a + b) = w64 (a + b).
  Proof. rewrite !w64_mod. apply N.add_mod_idemp_l. discriminate. Qed.

  (** Adding a block at a free position. *)
  Lemma prep_push ptrs ptrs' h by_ m x k :
    prep vs ptrs h by_ m -> m !! x = None ->
    vlen ptrs <= vlen ptrs' -> x < vlen ptrs' ->
    (forall y, y < vlen ptrs' -> y <> x -> vnth ptrs' y = if y <? vlen ptrs then vnth ptrs y else None) ->
    vnth ptrs' x = Some (h_next h) ->
    (x < vlen ptrs -> vnth ptrs x = None) ->
    prep vs ptrs' (hp_push h (k ++ zeros vs)) (add64 by_ (N.of_nat (length k) + N.of_nat vs))
      (<[x := (k, zeros vs)]> m) /\
    ppt vs ptrs' (hp_push h (k ++ zeros vs)) x (h_next h, N.of_nat (length k)) /\
    (forall y q, ppt vs ptrs h y q -> ppt vs ptrs' (hp_push h (k ++ zeros vs)) y q).
  Proof.
    intros R Hm Hle Hx Hold Hnew Hfree.
    assert (Hzl : length (zeros vs) = vs) by (unfold zeros; apply repeat_length).
    assert (Hlt : forall y id, y < vlen ptrs -> vnth ptrs y = Some id -> id < h_next h).
    { intros y id Hy E. destruct (pr_some _ _ _ _ _ R y id Hy E) as (l & v & _ & _ & Hf).
      apply (pr_ok _ _ _ _ _ R id _ Hf). }
    assert (Hcase : forall y id, y < vlen ptrs' -> vnth ptrs' y = Some id ->
       (y = x /\ id = h_next h) \/ (y <> x /\ y < vlen ptrs /\ vnth ptrs y = Some id /\ id < h_next h)).
    { intros y id Hy E. destruct (N.eq_dec y x) as [->|Hne]; [left; split; congruence|].
      right. rewrite Hold in E by assumption. destruct (N.ltb_spec y (vlen ptrs)); [|discriminate].
      split; [exact Hne|]. split; [assumption|]. split; [exact E|]. eapply Hlt; eassumption. }
    split; [split|split].
    - intros y Hy E. destruct (N.eq_dec y x) as [->|Hne]; [congruence|].
      rewrite lookup_insert_ne by congruence. rewrite Hold in E by assumption.
      destruct (N.ltb_spec y (vlen ptrs)); [apply (pr_none _ _ _ _ _ R); assumption|].
      destruct (m !! y) as [e|] eqn:Em; [|reflexivity]. apply (pr_dom _ _ _ _ _ R) in Em. lia.
    - intros y id Hy E. destruct (Hcase y id Hy E) as [[-> ->]|(Hne & Hy' & E' & Hid)].
      + exists k, (zeros vs). rewrite lookup_insert, find_push, N.eqb_refl. auto.
      + rewrite lookup_insert_ne by congruence. rewrite find_push.
        destruct (N.eqb_spec id (h_next h)); [lia|]. apply (pr_some _ _ _ _ _ R y id Hy' E').
    - intros y e E. destruct (N.eq_dec y x) as [->|Hne]; [exact Hx|].
      rewrite lookup_insert_ne in E by congruence. apply (pr_dom _ _ _ _ _ R) in E. lia.
    - intros y z id Hy Hz Ey Ez.
      destruct (Hcase y id Hy Ey) as [[-> ->]|(Hne & Hy' & E' & Hid)];
      destruct (Hcase z _ Hz Ez) as [[-> E2]|(Hne2 & Hz' & E2 & Hid2)]; try lia; try reflexivity.
      apply (pr_inj _ _ _ _ _ R y z id); assumption.
    - intros id blk E. rewrite find_push in E. destruct (N.eqb_spec id (h_next h)) as [->|Hne]; [eauto|].
      destruct (pr_own _ _ _ _ _ R id blk E) as (y & Hy & Ey). exists y. split; [lia|].
      assert (y <> x) by (intros ->; rewrite (Hfree Hy) in Ey; discriminate).
      rewrite Hold by (assumption || lia). destruct (N.ltb_spec y (vlen ptrs)); [exact Ey|lia].
    - apply hp_ok_push, (pr_ok _ _ _ _ _ R).
    - rewrite hp_total_push by apply (pr_ok _ _ _ _ _ R). rewrite (pr_bytes _ _ _ _ _ R). unfold add64.
      rewrite w64_add_l. f_equal. rewrite app_length. lia.
    - split; [exact Hx|]. split; [exact Hnew|]. exists (k ++ zeros vs). simpl fst. simpl snd.
      rewrite find_push, N.eqb_refl. split; [reflexivity|]. rewrite app_length. lia.
    - intros y [id off] (Hy & Ey & blk & Hf & Hl). simpl in *.
      assert (y <> x) by (intros ->; rewrite (Hfree Hy) in Ey; discriminate).
      split; [lia|]. simpl. split.
      + rewrite Hold by (assumption || lia). destruct (N.ltb_spec y (vlen ptrs)); [exact Ey|lia].
      + exists blk. split; [|exact Hl]. rewrite find_push.
        destruct (N.eqb_spec id (h_next h)) as [->|]; [|exact Hf].
        pose proof (pr_ok _ _ _ _ _ R _ _ Hf). lia.
  Qed.

  Lemma rename_size (f : N -> option N) (m m' : gmap N (list N * list N)) :
    (forall x e, m !! x = Some e -> is_Some (f x)) ->
    (forall x y z, is_Some (m !! x) -> is_Some (m !! y) -> f x = Some z -> f y = Some z -> x = y) ->
    (forall y e, m' !! y = Some e <-> exists x, f x = Some y /\ m !! x = Some e) ->
    size m' = size m.
  Proof.
    revert m'. induction m as [|x0 e0 m Hx0 IH] using map_ind; intros m' Hs Hi Hm.
    - rewrite map_size_empty. apply map_size_empty_iff. apply map_empty. intros y.
      destruct (m' !! y) as [e|] eqn:E; [|reflexivity]. apply Hm in E as (x & _ & Hx).
      rewrite lookup_empty in Hx. discriminate.
    - destruct (Hs x0 e0) as [y0 Hy0]; [apply lookup_insert|].
      assert (Hin : m' !! y0 = Some e0).
      { apply Hm. exists x0. split; [exact Hy0|apply lookup_insert]. }
      rewrite map_size_insert_None by exact Hx0.
      rewrite <- (insert_delete m' y0 e0 Hin). rewrite map_size_insert_None by apply lookup_delete.
      f_equal. apply IH.
      + intros x e Hx. apply (Hs x e). rewrite lookup_insert_ne; [exact Hx|congruence].
      + intros x y z [ex Hx] [ey Hy]. apply Hi.
        * rewrite lookup_insert_ne by congruence. eauto.
        * rewrite lookup_insert_ne by congruence. eauto.
      + intros y e. rewrite lookup_delete_Some, Hm. split.
        * intros (Hne & x & Hfx & Hx). exists x. split; [exact Hfx|].
          rewrite lookup_insert_ne in Hx; [exact Hx|]. congruence.
        * intros (x & Hfx & Hx). split.
          { intros <-. assert (x = x0).
            { apply (Hi x x0 y0); [|rewrite lookup_insert; eauto|exact Hfx|exact Hy0].
              rewrite lookup_insert_ne by congruence. eauto. }
            congruence. }
          exists x. split; [exact Hfx|]. rewrite lookup_insert_ne; [exact Hx|]. congruence.
  Qed.

  Lemma free_none v h : (forall i, i < vlen v -> vnth v i = None) -> free_all v h = Ret h.
  Proof.
    intros Hv. unfold free_all. set (g := fun _ => _).
    assert (E : forall k, k <= vlen v -> N.iter k g (Ret (0, h)) = Ret (k, h)).
    { induction k as [|k IH] using N.peano_ind; intros Hk; [reflexivity|]. rewrite N.iter_succ, IH by lia. unfold g.
      rewrite bind_ret, vget_ok by lia. rewrite bind_ret, Hv by lia. cbn [hp_delete]. rewrite bind_ret. f_equal. f_equal. lia. }
    rewrite E by lia. reflexivity.
  Qed.

  Lemma pbn_expand_ok P n m nm (f : N -> option N) m' : pbn_rep P n m -> nm_size nm = P ->
    (exists b, 16 <= b <= 55 /\ P = 2 ^ b) ->
    (forall i, i < P -> nm_get nm i = Ret (default UINT64_MAX (f i))) ->
    (forall i j y, i < P -> j < P -> f i = Some y -> f j = Some y -> i = j) ->
    (forall i y, i < P -> f i = Some y -> y < 2 * P) ->
    (forall x e, m !! x = Some e -> x < P /\ is_Some (f x)) ->
    (forall y e, m' !! y = Some e <-> exists x, f x = Some y /\ m !! x = Some e) ->
    exists n', pbn_expand n nm = Ret n' /\ pbn_rep (2 * P) n' m' /\
      (forall x y q, pbn_pt n x q -> f x = Some y -> pbn_pt n' y q).
  Proof.
    intros (HP & R & Hsize) Hnm (b & Hb & EP) Hget Hinj Hrange Hdom Hm'.
    assert (HP56 : 2 * P <= 2 ^ 56). { rewrite EP, <- pow2_succ. apply pow2_le. lia. }
    assert (HP64 : 2 * P < 2 ^ 64). { apply N.le_lt_trans with (2 ^ 56); [exact HP56|reflexivity]. }
    set (inv := fun k (st : vec (option N) * vec (option N) * heap) =>
      let '(p, np, h) := st in
      h = pbn_heap n /\ vlen p = P /\ vlen np = 2 * P /\
      (forall i, i < P -> vnth p i = if (i <? k) && (if f i then true else false) then None else vnth (pbn_ptrs n) i) /\
      (forall y id, y < 2 * P -> vnth np y = Some id <-> exists i, i < k /\ i < P /\ f i = Some y /\ vnth (pbn_ptrs n) i = Some id)).
    assert (Hloop : wp (for_range 0 (nm_size nm) (fun i st =>
      let '(ptrs, new_ptrs, h) := st in
      let* y := nm_get nm i in
      if negb (y =? UINT64_MAX) then
        let* p := vget ptrs i in
        let* old := vget new_ptrs y in
        let* new_ptrs := vset new_ptrs y p in
        let* ptrs := vset ptrs i None in
        let* h := hp_delete h old in
        Ret (ptrs, new_ptrs, h)
      else Ret st) (pbn_ptrs n, vnew (mul64 (vlen (pbn_ptrs n)) 2) None, pbn_heap n)) (inv P)).
    { rewrite Hnm. apply wp_for_range with (I := inv).
      - lia.
      - lia.
      - unfold inv. split; [reflexivity|]. split; [exact HP|]. split.
        { rewrite vlen_new. unfold mul64. rewrite HP, w64_small by lia. lia. }
        split.
        + intros i Hi. destruct (N.ltb_spec i 0); [lia|reflexivity].
        + intros y id Hy. rewrite vnth_new. split; [discriminate|]. intros (i & Hi & _). lia.
      - intros i [[p np] h] Hi (-> & Hlp & Hln & Hp & Hnp). rewrite Hget by lia. rewrite bind_ret.
        destruct (f i) as [y|] eqn:Ef; cbn [from_option]; unfold id.
        + pose proof (Hrange i y ltac:(lia) Ef) as Hy.
          destruct (N.eqb_spec y UINT64_MAX) as [E|_].
          { exfalso. rewrite E in Hy. unfold UINT64_MAX in Hy. change (2 ^ 64) with 18446744073709551616 in HP64.
            change (2 ^ 56) with 72057594037927936 in HP56. lia. }
          cbn [negb]. rewrite vget_ok by lia. rewrite bind_ret, vget_ok by lia. rewrite bind_ret, vset_ok by lia.
          rewrite bind_ret, vset_ok by lia. rewrite bind_ret.
          assert (Hold : vnth np y = None).
          { destruct (vnth np y) as [id|] eqn:E; [|reflexivity]. apply Hnp in E as (j & Hj & HjP & Hfj & _); [|exact Hy].
            assert (j = i) by (apply (Hinj j i y); try assumption; lia). lia. }
          rewrite Hold. cbn [hp_delete]. rewrite bind_ret. apply wp_ret. unfold inv.
          split; [reflexivity|]. rewrite !vlen_upd. split; [exact Hlp|]. split; [exact Hln|].
          split.
          * intros j Hj. rewrite vnth_upd. destruct (N.eqb_spec j i) as [->|Hne].
            { rewrite Ef. destruct (N.ltb_spec i (i + 1)); [reflexivity|lia]. }
            rewrite Hp by exact Hj. destruct (N.ltb_spec j i), (N.ltb_spec j (i + 1)); try lia; reflexivity.
          * intros z id Hz. rewrite vnth_upd. destruct (N.eqb_spec z y) as [->|Hne].
            { rewrite Hp by lia. destruct (N.ltb_spec i i); [lia|]. cbn [andb]. split.
              - intros E. exists i. split; [lia|]. split; [lia|]. auto.
              - intros (j & Hj & HjP & Hfj & E). assert (j = i) as -> by (apply (Hinj j i y); try assumption; lia). exact E. }
            rewrite Hnp by exact Hz. split; intros (j & Hj & HjP & Hfj & E); exists j; (split; [|auto]); [lia|].
            assert (j <> i) by congruence. lia.
        + rewrite N.eqb_refl. cbn [negb]. apply wp_ret. unfold inv. split; [reflexivity|]. split; [exact Hlp|].
          split; [exact Hln|]. split.
          * intros j Hj. rewrite Hp by exact Hj. destruct (N.eq_dec j i) as [->|Hne].
            { rewrite Ef, !andb_false_r. reflexivity. }
            destruct (N.ltb_spec j i), (N.ltb_spec j (i + 1)); try lia; reflexivity.
          * intros z id Hz. rewrite Hnp by exact Hz.
            split; intros (j & Hj & HjP & Hfj & E); exists j; (split; [|auto]); [lia|].
            assert (j <> i) by congruence. lia.
      - auto. }
    apply wp_inv in Hloop as ([[p np] h] & El & (-> & Hlp & Hln & Hp & Hnp)).
    unfold pbn_expand. rewrite El, bind_ret.
    rewrite free_none.
    2:{ intros i Hi. rewrite Hlp in Hi. rewrite Hp by exact Hi. destruct (N.ltb_spec i P); [|lia].
        destruct (f i) eqn:Ef; [reflexivity|]. cbn [andb].
        destruct (vnth (pbn_ptrs n) i) as [id|] eqn:E; [|reflexivity].
        destruct (pr_some _ _ _ _ _ R i id ltac:(lia) E) as (l & v & Hm & _).
        destruct (Hdom i _ Hm) as [_ [y Hy]]. congruence. }
    rewrite bind_ret. eexists. split; [reflexivity|]. split.
    - split; [exact Hln|]. split; [|].
      + cbn [pbn_ptrs pbn_heap pbn_bytes]. split.
        * rewrite Hln. intros y Hy E. destruct (m' !! y) as [e|] eqn:Em; [|reflexivity].
          apply Hm' in Em as (x & Hfx & Hx). destruct (prep_look _ _ _ _ _ (fst e) (snd e) R ltac:(rewrite Hx; destruct e; reflexivity))
            as (id & Hxl & Hid & _). assert (vnth np y = Some id).
          { apply Hnp; [exact Hy|]. exists x. rewrite HP in Hxl. auto. }
          congruence.
        * rewrite Hln. intros y id Hy E. apply Hnp in E as (i & Hi & _ & Hfi & Ei); [|exact Hy].
          destruct (pr_some _ _ _ _ _ R i id ltac:(lia) Ei) as (l & v & Hm & Hv & Hf).
          exists l, v. split; [apply Hm'; eauto|auto].
        * rewrite Hln. intros y e E. apply Hm' in E as (x & Hfx & Hx). destruct (Hdom x e Hx) as [Hxl _].
          apply (Hrange x y Hxl Hfx).
        * rewrite Hln. intros y z id Hy Hz Ey Ez. apply Hnp in Ey as (i & Hi & _ & Hfi & Ei); [|exact Hy].
          apply Hnp in Ez as (j & Hj & _ & Hfj & Ej); [|exact Hz].
          assert (i = j) by (apply (pr_inj _ _ _ _ _ R i j id); try assumption; lia). congruence.
        * rewrite Hln. intros id blk E. destruct (pr_own _ _ _ _ _ R id blk E) as (x & Hx & Ex).
          destruct (pr_some _ _ _ _ _ R x id Hx Ex) as (l & v & Hm & _). destruct (Hdom x _ Hm) as [HxP [y Hy]].
          pose proof (Hrange x y HxP Hy). exists y. split; [assumption|]. apply Hnp; [assumption|]. exists x. auto.
        * apply (pr_ok _ _ _ _ _ R).
        * apply (pr_bytes _ _ _ _ _ R).
      + cbn [pbn_size]. rewrite Hsize. do 2 f_equal. symmetry. apply (rename_size f m m').
        * intros x e Hx. apply (Hdom x e Hx).
        * intros x y z [ex Hx] [ey Hy]. apply Hinj; [apply (Hdom x ex Hx)|apply (Hdom y ey Hy)].
        * exact Hm'.
    - intros x y [id off] (Hx & Ex & Hblk) Hfx. simpl in *. rewrite HP in Hx.
      pose proof (Hrange x y Hx Hfx) as Hy. split; [cbn [pbn_ptrs]; lia|]. split; [|exact Hblk].
      cbn [pbn_ptrs fst]. apply Hnp; [exact Hy|]. exists x. auto.
  Qed.

  Lemma ptok_mono fk (NO : nlm_ops) (npt : nT NO -> N -> ptr -> Prop) n n' y y' :
    (forall z, z = y -> fk = true -> z = y') -> (forall q, npt n y q -> npt n' y' q) -> forall q, tok fk (fun _ _ => True) npt n y q -> tok fk (fun _ _ => True) npt n' y' q.
  Proof. intros H1 H2 [z|q] [H3 H4]; split; auto. Qed.
  Lemma pbn_ok : blnm_ok (pbn_ops vs) (@tok (pbn_ops vs) false (fun _ _ => True) pbn_pt) pbn_rep pbn_pt.
  Proof.
    split; cbn [n_new n_compare n_insert n_heap n_set_heap n_vs n_expand pbn_ops].
    - intros b Hb. unfold pbn_new. destruct (N.ltb_spec b 64); [|lia]. eexists. split; [reflexivity|].
      split; [|split; [|reflexivity]].
      + cbn [pbn_ptrs]. rewrite vlen_new, shl_mul; [lia|]. rewrite N.mul_1_l. apply pow2_lt. assumption.
      + cbn [pbn_ptrs pbn_heap pbn_bytes]. apply prep_new. intros x _. apply vnth_new.
    - intros P n m x k l v (_ & R & _) H Hk. apply (plain_compare_ok _ _ _ _ _ _ _ _ R H Hk).
    - intros P n m x k (HP & R & Hs) Hx Hm Hsm. unfold pbn_insert.
      rewrite vget_ok by lia. rewrite bind_ret.
      assert (Hn : vnth (pbn_ptrs n) x = None).
      { destruct (vnth (pbn_ptrs n) x) as [id|] eqn:E; [|reflexivity].
        destruct (pr_some _ _ _ _ _ R x id ltac:(lia) E) as (l & v & H & _). congruence. }
      rewrite Hn, assert_true by reflexivity. rewrite bind_ret, fill_ok, bind_ret, hp_alloc_eq, vset_ok by lia. rewrite bind_ret.
      eexists _, _. split; [reflexivity|].
      destruct (prep_push (pbn_ptrs n) (vupd (pbn_ptrs n) x (Some (h_next (pbn_heap n)))) _ _ m x k R Hm)
        as (R' & Hpt & Hk').
      { rewrite vlen_upd. lia. } { rewrite vlen_upd. lia. }
      { rewrite vlen_upd. intros y Hy Hne. rewrite vnth_upd_ne by exact Hne.
        destruct (N.ltb_spec y (vlen (pbn_ptrs n))); [reflexivity|lia]. }
      { apply vnth_upd_eq. } { intros _. exact Hn. }
      split; [|split; [exact Hpt|intros y; apply ptok_mono; [auto|exact (Hk' y)]]].
      split; [exact HP|]. split; [exact R'|]. cbn [pbn_size]. rewrite Hs. unfold add64. rewrite w64_add_l.
      rewrite map_size_insert_None by exact Hm. f_equal. lia.
    - intros P n m x p (_ & R & _) Hp. apply (plain_read _ _ _ _ _ _ R Hp).
    - intros P n m x p l v w (HP & R & Hs) Hp Hm Hw.
      destruct (plain_write _ _ _ _ _ _ _ _ w R Hp Hm Hw) as (h' & E & R' & Hk). exists h'.
      split; [exact E|]. split; [|split; [exact Hk|intros y; apply ptok_mono; [auto|exact (Hk y)]]]. split; [exact HP|]. split; [exact R'|].
      cbn [pbn_size]. rewrite map_size_insert_Some by eauto. exact Hs.
    - intros P n m nm f m' R Hnm HP Hget Hinj Hr Hd Hm'.
      destruct (pbn_expand_ok P n m nm f m' R Hnm HP Hget Hinj Hr Hd Hm') as (n' & E & R' & Hk).
      exists n'. split; [exact E|]. split; [exact R'|]. intros x y q Hq Hf. revert q Hq. apply ptok_mono; [discriminate|]. intros q Hq. exact (Hk x y q Hq Hf).
  Qed.

  (** *** FK-hash store *)
  Definition pfn_rep (c : N) (n : pfn) (m : gmap N (list N * list N)) : Prop :=
    vlen (pfn_ptrs n) = c /\ prep vs (pfn_ptrs n) (pfn_heap n) (pfn_bytes n) m.
  Definition pfn_pt (n : pfn) (x : N) (p : ptr) : Prop := ppt vs (pfn_ptrs n) (pfn_heap n) x p.

  Lemma pfn_ok : flnm_ok (pfn_ops vs) (@tok (pfn_ops vs) true (fun _ _ => True) pfn_pt) pfn_rep pfn_pt.
  Proof.
    split; cbn [n_new n_compare n_append n_append_dummy n_heap n_set_heap n_vs n_size pfn_ops].
    - intros b Hb. unfold pfn_new. destruct (N.ltb_spec b 64); [|lia]. eexists. split; [reflexivity|].
      split; [reflexivity|]. apply prep_new. intros x Hx. simpl in Hx. lia.
    - intros c n m (H & _). exact H.
    - intros P n m x k l v (_ & R) H Hk. apply (plain_compare_ok _ _ _ _ _ _ _ _ R H Hk).
    - intros c n m k (HP & R) Hc Hsm. unfold pfn_append.
      rewrite fill_ok, bind_ret, hp_alloc_eq. eexists _, _. split; [reflexivity|].
      assert (Hm : m !! c = None).
      { destruct (m !! c) as [e|] eqn:E; [|reflexivity]. apply (pr_dom _ _ _ _ _ R) in E. lia. }
      destruct (prep_push (pfn_ptrs n) (vpush (pfn_ptrs n) (Some (h_next (pfn_heap n)))) _ _ m c k R Hm)
        as (R' & Hpt & Hk').
      { rewrite vlen_push. lia. } { rewrite vlen_push. lia. }
      { rewrite vlen_push. intros y Hy Hne. rewrite vnth_push. destruct (N.eqb_spec y (vlen (pfn_ptrs n))); [lia|].
        destruct (N.ltb_spec y (vlen (pfn_ptrs n))); [reflexivity|lia]. }
      { rewrite vnth_push, HP, N.eqb_refl. reflexivity. } { lia. }
      split; [|split; [exact Hpt|intros y; apply ptok_mono; [auto|exact (Hk' y)]]].
      split; [rewrite <- HP; apply vlen_push|exact R'].
    - intros c n m (HP & R) Hc. eexists. split; [reflexivity|].
      assert (Hpush : forall y, y < vlen (pfn_ptrs n) -> vnth (vpush (pfn_ptrs n) None) y = vnth (pfn_ptrs n) y).
      { intros y Hy. rewrite vnth_push. destruct (N.eqb_spec y (vlen (pfn_ptrs n))); [lia|reflexivity]. }
      assert (Hinv : forall y id, y < vlen (pfn_ptrs n) + 1 -> vnth (vpush (pfn_ptrs n) None) y = Some id ->
         y < vlen (pfn_ptrs n) /\ vnth (pfn_ptrs n) y = Some id).
      { intros y id Hy E. rewrite vnth_push in E. destruct (N.eqb_spec y (vlen (pfn_ptrs n))); [discriminate|].
        split; [lia|exact E]. }
      split; [split|].
      + rewrite <- HP. apply vlen_push.
      + cbn [pfn_ptrs pfn_heap pfn_bytes]. split.
        * rewrite vlen_push. intros x Hx E. destruct (m !! x) as [e|] eqn:Em; [|reflexivity].
          pose proof (pr_dom _ _ _ _ _ R _ _ Em) as Hx'. rewrite Hpush in E by exact Hx'.
          rewrite (pr_none _ _ _ _ _ R x Hx' E) in Em. discriminate.
        * rewrite vlen_push. intros x id Hx E. destruct (Hinv x id Hx E). apply (pr_some _ _ _ _ _ R); assumption.
        * intros x e E. rewrite vlen_push. apply (pr_dom _ _ _ _ _ R) in E. lia.
        * rewrite vlen_push. intros x y id Hx Hy Ex Ey. destruct (Hinv x id Hx Ex), (Hinv y id Hy Ey).
          apply (pr_inj _ _ _ _ _ R x y id); assumption.
        * intros id blk E. destruct (pr_own _ _ _ _ _ R id blk E) as (x & Hx & Ex). exists x.
          rewrite vlen_push, Hpush by exact Hx. split; [lia|exact Ex].
        * apply (pr_ok _ _ _ _ _ R).
        * apply (pr_bytes _ _ _ _ _ R).
      + intros y. apply ptok_mono; [auto|]. intros q (Hy & Ey & Hb). split; [|split; [|exact Hb]]; cbn [pfn_ptrs].
        * rewrite vlen_push. lia.
        * rewrite Hpush by exact Hy. exact Ey.
    - intros c n m x e (HP & R) H. rewrite <- HP. apply (pr_dom _ _ _ _ _ R _ _ H).
    - intros P n m x p (_ & R) Hp. apply (plain_read _ _ _ _ _ _ R Hp).
    - intros P n m x p l v w (HP & R) Hp Hm Hw.
      destruct (plain_write _ _ _ _ _ _ _ _ w R Hp Hm Hw) as (h' & E & R' & Hk). exists h'.
      split; [exact E|]. split; [|split; [exact Hk|intros y; apply ptok_mono; [auto|exact (Hk y)]]]. split; [exact HP|exact R'].
  Qed.
End plain.
