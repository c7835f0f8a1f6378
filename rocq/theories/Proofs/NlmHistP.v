(** Histories of label stores stay within the contracts. *)
From Verif.Props Require Export NlmSpec.
From Verif.Proofs Require Export StoreP PlainNlmP CompactBonsaiNlmP CompactFkNlmP AliasP.
Local Open Scope N_scope.

Lemma label_olab vs k : valid_label vs k -> olab k /\ small vs k.
Proof.
  intros [[->|(s & -> & Hs)] Hsm]; (split; [|exact Hsm]); [left; reflexivity|right]. exists s. split; [reflexivity|].
  intros Hin. rewrite Forall_forall in Hs. apply (Hs 0); [|reflexivity]. apply elem_of_list_In, Hin.
Qed.
Lemma comparable_cases vs k l : valid_label vs k -> olab l -> comparable k l -> (k = [] /\ l = []) \/ (okey k /\ okey l).
Proof.
  intros Hk Hl [C1 C2]. destruct (label_olab vs k Hk) as [[Ek|Ek] _].
  - left. auto.
  - destruct Hl as [El|El]; [|auto]. rewrite (C2 El) in Ek. destruct (okey_nil Ek).
Qed.
Lemma lcp_common k l : okey k -> okey l -> k <> l -> common_prefix k l (lcp k l).
Proof.
  intros Hk Hl Hne. destruct (okey_diff k l Hk Hl Hne) as (a & c & d & k' & l' & Ek & El & Hcd & Ha).
  destruct (lcp_split k l) as (H1 & H2 & H3). split; [exact H3|]. split; [exact H1|]. split; [exact H2|].
  rewrite <- Ha. rewrite Ek, El. rewrite !nth_error_app2 by lia. rewrite Nat.sub_diag. simpl. congruence.
Qed.

Lemma zeros_repl vs : zeros vs = replicate vs 0.
Proof. unfold zeros. induction vs; simpl; congruence. Qed.

Lemma rename_exists (f : N -> option N) (m : labels) :
  (forall x e, m !! x = Some e -> is_Some (f x)) ->
  (forall x y z, is_Some (m !! x) -> is_Some (m !! y) -> f x = Some z -> f y = Some z -> x = y) ->
  exists m', renamed f m m'.
Proof.
  induction m as [|x0 e0 m Hx0 IH] using map_ind; intros Hs Hi.
  - exists ∅. intros y e. rewrite lookup_empty. split; [discriminate|]. intros (x & _ & H). rewrite lookup_empty in H. discriminate.
  - destruct (Hs x0 e0 (lookup_insert _ _ _)) as [y0 Hy0]. destruct IH as [m' Hm'].
    + intros x e Hx. apply (Hs x e). rewrite lookup_insert_ne by congruence. exact Hx.
    + intros x y z [ex Hx] [ey Hy]. apply Hi; rewrite lookup_insert_ne by congruence; eauto.
    + exists (<[y0 := e0]> m'). intros y e. destruct (decide (y = y0)) as [->|Hne].
      * rewrite lookup_insert. split.
        { intros [= <-]. exists x0. rewrite lookup_insert. auto. }
        intros (x & Hfx & Hx). assert (x = x0) as ->; [|rewrite lookup_insert in Hx; congruence].
        apply (Hi x x0 y0); [eauto|rewrite lookup_insert; eauto|exact Hfx|exact Hy0].
      * rewrite lookup_insert_ne by congruence. rewrite (Hm' y e). split; intros (x & Hfx & Hx); exists x; (split; [exact Hfx|]).
        { rewrite lookup_insert_ne by congruence. exact Hx. }
        rewrite lookup_insert_ne in Hx by congruence. exact Hx.
Qed.

Lemma bl_dom NO P n m : bonsai_labels NO P n m ->
  (exists b, 16 <= b <= 56 /\ P = 2 ^ b) /\ (forall x e, m !! x = Some e -> x < P) /\
  (forall x l v, m !! x = Some (l, v) -> olab l /\ length v = n_vs NO).
Proof.
  induction 1 as [b n Hb E|P n m x k p n' _ [HP [IH IHl]] Hx Hm Hk E|P n m x k v p i w h _ [HP [IH IHl]] Hm E Hw E'|b n m f nm n' m' _ [HP [IH IHl]] Hb Hnm Hd E Hr].
  - split; [eauto|]. split; intros x; intros; rewrite lookup_empty in *; discriminate.
  - split; [exact HP|]. split.
    + intros y e. destruct (decide (y = x)) as [->|Hne]; [auto|]. rewrite lookup_insert_ne by congruence. apply IH.
    + intros y l v. destruct (decide (y = x)) as [->|Hne].
      * rewrite lookup_insert. intros [= <- <-]. split; [apply (label_olab _ _ Hk)|apply replicate_length].
      * rewrite lookup_insert_ne by congruence. apply IHl.
  - split; [exact HP|]. split.
    + intros y e. destruct (decide (y = x)) as [->|Hne]; [eauto|]. rewrite lookup_insert_ne by congruence. apply IH.
    + intros y l v'. destruct (decide (y = x)) as [->|Hne].
      * rewrite lookup_insert. intros [= <- <-]. split; [apply (IHl _ _ _ Hm)|exact Hw].
      * rewrite lookup_insert_ne by congruence. apply IHl.
  - destruct HP as (b' & Hb' & EP). apply N.pow_inj_r in EP; [|lia]. subst b'. split.
    + exists (b + 1). split; [lia|]. rewrite N.pow_add_r. apply N.mul_comm.
    + destruct Hnm as (_ & _ & _ & Hr2). split.
      * intros y e Hy. apply Hr in Hy as (x & Hfx & Hx). apply (Hr2 x y); [|exact Hfx]. apply (IH _ _ Hx).
      * intros y l v Hy. apply Hr in Hy as (x & Hfx & Hx). apply (IHl _ _ _ Hx).
Qed.
Lemma fl_dom NO c n m : fkhash_labels NO c n m ->
  (forall x l v, m !! x = Some (l, v) -> olab l /\ length v = n_vs NO).
Proof.
  induction 1 as [b n Hb E|c n m k p n' _ IHl Hc Hk E|c n m n' _ IH Hc E|c n m x k v p i w h _ IHl Hm E Hw E'].
  - intros x l v Hx. rewrite lookup_empty in Hx. discriminate.
  - intros y l v. destruct (decide (y = c)) as [->|Hne].
    + rewrite lookup_insert. intros [= <- <-]. split; [apply (label_olab _ _ Hk)|apply replicate_length].
    + rewrite lookup_insert_ne by congruence. apply IHl.
  - exact IH.
  - intros y l v'. destruct (decide (y = x)) as [->|Hne].
    + rewrite lookup_insert. intros [= <- <-]. split; [apply (IHl _ _ _ Hm)|exact Hw].
    + rewrite lookup_insert_ne by congruence. apply IHl.
Qed.

Lemma cases_refl l : olab l -> (l = [] /\ l = []) \/ (okey l /\ okey l).
Proof. intros [H|H]; auto. Qed.

Section bonsai.
  Context (NO : nlm_ops) {Q : Type} (stable : nT NO -> N -> Q -> Prop) (rep : N -> nT NO -> labels -> Prop) (npt : nT NO -> N -> ptr -> Prop).
  Hypothesis H : blnm_ok NO stable rep npt.

  Lemma bl_rep P n m : bonsai_labels NO P n m -> rep P n m.
  Proof.
    induction 1 as [b n Hb E|P n m x k p n' Hr IH Hx Hm Hk E|P n m x k v p i w h Hr IH Hm E Hw E'|b n m f nm n' m' Hr IH Hb Hnm Hd E Hren].
    - destruct (bn_new _ _ _ _ H b Hb) as (n0 & E0 & R). congruence.
    - destruct (label_olab _ _ Hk) as [Hl Hs]. destruct (bn_insert _ _ _ _ H P n m x k IH Hx Hm Hs) as (p0 & n0 & E0 & R & _).
      rewrite zeros_repl in R. congruence.
    - destruct (bl_dom _ _ _ _ Hr) as (_ & _ & Hl). destruct (Hl _ _ _ Hm) as [Hol _].
      destruct (bn_compare _ _ _ _ H P n m x k k v IH Hm (cases_refl _ Hol)) as [C _].
      destruct (C eq_refl) as (p0 & i0 & E0 & Hp). assert (p0 = p) as -> by congruence.
      destruct (bn_write _ _ _ _ H P n m x p k v w IH Hp Hm Hw) as (h0 & E1 & R & _). congruence.
    - destruct (bl_dom _ _ _ _ Hr) as (HP & Hdom & _). destruct HP as (b' & Hb' & EP).
      apply N.pow_inj_r in EP; [|lia]. subst b'. destruct Hnm as (N1 & N2 & N3 & N4).
      destruct (bn_expand _ _ _ _ H (2 ^ b) n m nm f m' IH N1) as (n0 & E0 & R & _); eauto.
      { exists b. split; [lia|reflexivity]. } congruence.
  Qed.
  Lemma bl_insert_total P n m x k : bonsai_labels NO P n m -> x < P -> m !! x = None -> valid_label (n_vs NO) k ->
    exists p n', n_insert NO n x k = Ret (p, n') /\ hp_read (n_heap NO n') p (n_vs NO) = Ret (replicate (n_vs NO) 0).
  Proof.
    intros Hr Hx Hm Hk. destruct (label_olab _ _ Hk) as [Hl Hs].
    destruct (bn_insert _ _ _ _ H P n m x k (bl_rep _ _ _ Hr) Hx Hm Hs) as (p & n' & E & R & Hp & _).
    exists p, n'. split; [exact E|]. destruct (bn_read _ _ _ _ H _ _ _ _ _ R Hp) as (l & v & Hm' & Er).
    rewrite lookup_insert in Hm'. injection Hm' as <- <-. rewrite <- zeros_repl. exact Er.
  Qed.
  Lemma bl_compare P n m x k l v : bonsai_labels NO P n m -> m !! x = Some (l, v) -> valid_label (n_vs NO) k -> comparable k l ->
    (k = l -> exists p i, n_compare NO n x k = Ret (Some p, i) /\ hp_read (n_heap NO n) p (n_vs NO) = Ret v /\
       forall w, length w = n_vs NO -> exists h, hp_write (n_heap NO n) p w = Ret h) /\
    (k <> l -> exists i, n_compare NO n x k = Ret (None, N.of_nat i) /\ common_prefix k l i).
  Proof.
    intros Hr Hm Hk Hc. destruct (bl_dom _ _ _ _ Hr) as (_ & _ & Hl). destruct (Hl _ _ _ Hm) as [Hol _].
    pose proof (comparable_cases _ _ _ Hk Hol Hc) as Hcs.
    destruct (bn_compare _ _ _ _ H P n m x k l v (bl_rep _ _ _ Hr) Hm Hcs) as [C1 C2]. split.
    - intros E. destruct (C1 E) as (p & i & Ec & Hp). exists p, i. split; [exact Ec|].
      destruct (bn_read _ _ _ _ H _ _ _ _ _ (bl_rep _ _ _ Hr) Hp) as (l' & v' & Hm' & Er). split; [congruence|].
      intros w Hw. destruct (bn_write _ _ _ _ H P n m x p l v w (bl_rep _ _ _ Hr) Hp Hm Hw) as (h & E1 & _). eauto.
    - intros E. exists (lcp k l). split; [apply C2, E|]. destruct Hcs as [[-> ->]|[H1 H2]]; [congruence|]. apply lcp_common; assumption.
  Qed.
  Lemma bl_expand_total b n m f nm : bonsai_labels NO (2 ^ b) n m -> b <= 55 -> position_map (2 ^ b) f nm ->
    (forall x e, m !! x = Some e -> is_Some (f x)) ->
    exists n' m', n_expand NO n nm = Ret n' /\ renamed f m m' /\ bonsai_labels NO (2 * 2 ^ b) n' m'.
  Proof.
    intros Hr Hb Hnm Hd. destruct (bl_dom _ _ _ _ Hr) as (HP & Hdom & _). destruct HP as (b' & Hb' & EP).
    apply N.pow_inj_r in EP; [|lia]. subst b'. pose proof Hnm as (N1 & N2 & N3 & N4).
    destruct (rename_exists f m Hd) as (m' & Hren).
    { intros x y z [ex Hx] [ey Hy]. apply N3; [apply (Hdom _ _ Hx)|apply (Hdom _ _ Hy)]. }
    destruct (bn_expand _ _ _ _ H (2 ^ b) n m nm f m' (bl_rep _ _ _ Hr) N1) as (n' & E & _); eauto.
    { exists b. split; [lia|reflexivity]. }
    exists n', m'. split; [exact E|]. split; [exact Hren|]. eapply bl_expand; eassumption.
  Qed.
End bonsai.

Section fkhash.
  Context (NO : nlm_ops) {Q : Type} (stable : nT NO -> N -> Q -> Prop) (rep : N -> nT NO -> labels -> Prop) (npt : nT NO -> N -> ptr -> Prop).
  Hypothesis H : flnm_ok NO stable rep npt.

  Lemma fl_rep c n m : fkhash_labels NO c n m -> rep c n m.
  Proof.
    induction 1 as [b n Hb E|c n m k p n' Hr IH Hc Hk E|c n m n' Hr IH Hc E|c n m x k v p i w h Hr IH Hm E Hw E'].
    - destruct (fn_new _ _ _ _ H b Hb) as (n0 & E0 & R). congruence.
    - destruct (label_olab _ _ Hk) as [Hl Hs]. destruct (fn_append _ _ _ _ H c n m k IH Hc Hs) as (p0 & n0 & E0 & R & _).
      rewrite zeros_repl in R. congruence.
    - destruct (fn_dummy _ _ _ _ H c n m IH Hc) as (n0 & E0 & R & _). congruence.
    - destruct (fl_dom _ _ _ _ Hr _ _ _ Hm) as [Hol _].
      destruct (fn_compare _ _ _ _ H c n m x k k v IH Hm (cases_refl _ Hol)) as [C _].
      destruct (C eq_refl) as (p0 & i0 & E0 & Hp). assert (p0 = p) as -> by congruence.
      destruct (fn_write _ _ _ _ H c n m x p k v w IH Hp Hm Hw) as (h0 & E1 & R & _). congruence.
  Qed.
  Lemma fl_append_total c n m k : fkhash_labels NO c n m -> c + 1 < 2 ^ 57 -> valid_label (n_vs NO) k ->
    (exists p n', n_append NO n k = Ret (p, n') /\ hp_read (n_heap NO n') p (n_vs NO) = Ret (replicate (n_vs NO) 0)) /\
    (exists n', n_append_dummy NO n = Ret n') /\ n_size NO n = c.
  Proof.
    intros Hr Hc Hk. pose proof (fl_rep _ _ _ Hr) as R. destruct (label_olab _ _ Hk) as [Hl Hs]. split; [|split].
    - destruct (fn_append _ _ _ _ H c n m k R Hc Hs) as (p & n' & E & R' & Hp & _).
      exists p, n'. split; [exact E|]. destruct (fn_read _ _ _ _ H _ _ _ _ _ R' Hp) as (l & v & Hm' & Er).
      rewrite lookup_insert in Hm'. injection Hm' as <- <-. rewrite <- zeros_repl. exact Er.
    - destruct (fn_dummy _ _ _ _ H c n m R Hc) as (n' & E & _). eauto.
    - apply (fn_size _ _ _ _ H _ _ _ R).
  Qed.
  Lemma fl_compare c n m x k l v : fkhash_labels NO c n m -> m !! x = Some (l, v) -> valid_label (n_vs NO) k -> comparable k l ->
    (k = l -> exists p i, n_compare NO n x k = Ret (Some p, i) /\ hp_read (n_heap NO n) p (n_vs NO) = Ret v /\
       forall w, length w = n_vs NO -> exists h, hp_write (n_heap NO n) p w = Ret h) /\
    (k <> l -> exists i, n_compare NO n x k = Ret (None, N.of_nat i) /\ common_prefix k l i).
  Proof.
    intros Hr Hm Hk Hc. pose proof (fl_rep _ _ _ Hr) as R. destruct (fl_dom _ _ _ _ Hr _ _ _ Hm) as [Hol _].
    pose proof (comparable_cases _ _ _ Hk Hol Hc) as Hcs.
    destruct (fn_compare _ _ _ _ H c n m x k l v R Hm Hcs) as [C1 C2]. split.
    - intros E. destruct (C1 E) as (p & i & Ec & Hp). exists p, i. split; [exact Ec|].
      destruct (fn_read _ _ _ _ H _ _ _ _ _ R Hp) as (l' & v' & Hm' & Er). split; [congruence|].
      intros w Hw. destruct (fn_write _ _ _ _ H c n m x p l v w R Hp Hm Hw) as (h & E1 & _). eauto.
    - intros E. exists (lcp k l). split; [apply C2, E|]. destruct Hcs as [[-> ->]|[H1 H2]]; [congruence|]. apply lcp_common; assumption.
  Qed.
End fkhash.

(** ** Contents of the buffers *)
Lemma stored_removelast l : stored_label l = removelast l.
Proof. unfold stored_label. rewrite removelast_firstn_len. f_equal. lia. Qed.
Lemma stored_enc l v : fits (body (l, v)) -> stored (l, v) = enc (body (l, v)).
Proof.
  intros Hf. unfold stored, vbyte, enc, body in *. cbn [fst snd] in *. rewrite <- (stored_removelast l).
  rewrite vbyte_encode_ok by exact Hf. reflexivity.
Qed.
Lemma positions_succ base n : positions base (S n) = positions base n ++ [base + N.of_nat n].
Proof. unfold positions. rewrite seq_S, map_app. reflexivity. Qed.
Definition okm (m : labels) : Prop := forall x l v, m !! x = Some (l, v) -> fits (body (l, v)).
Lemma bonsai_bytes_ents m base n : okm m -> bonsai_bytes m (positions base n) = encs (ents m base n).
Proof.
  intros Hok. induction n as [|n IH]; [reflexivity|]. rewrite positions_succ. unfold bonsai_bytes in *.
  rewrite map_app, concat_app, IH. simpl. rewrite encs_app, app_nil_r. f_equal.
  destruct (m !! _) as [[l v]|] eqn:E; [|reflexivity]. cbn [ocell]. rewrite encs_one.
  apply stored_enc, (Hok _ _ _ E).
Qed.
Lemma fkhash_bytes_fents m base n : okm m -> fkhash_bytes m (positions base n) = encs (fents m base n).
Proof.
  intros Hok. induction n as [|n IH]; [reflexivity|]. rewrite positions_succ. unfold fkhash_bytes in *.
  rewrite map_app, concat_app, IH. simpl. rewrite encs_app, app_nil_r, encs_one. f_equal.
  destruct (m !! _) as [[l v]|] eqn:E; [|reflexivity]. cbn [fcell].
  apply stored_enc, (Hok _ _ _ E).
Qed.
Lemma goodm_okm vs P m : goodm vs P m -> okm m.
Proof. intros G x l v E. destruct (G x l v E) as (_ & Hv & Hs). eapply body_fits; eassumption. Qed.

(** ** Byte accounting of the compact FK-hash store *)
Lemma cfn_total cs vs c n m : width_ok cs -> cfn_rep cs vs c n m ->
  exists open, buf_bytes n = Ret open /\
    hp_total (cfn_heap n) = released cs c m ((c - 1) / cs) + N.of_nat (length open).
Proof.
  intros Hcs R. set (C := (c - 1) / cs). pose proof (fr_len _ _ _ _ _ R) as Hlen. fold C in Hlen.
  pose proof (fr_owns _ _ _ _ _ R) as Ro.
  assert (Hb : exists open, buf_bytes n = Ret open /\ olen (fblocks cs c m C) = N.of_nat (length open)).
  { assert (Hl : flook n C = cfn_buf n).
    { unfold flook. rewrite Hlen. destruct (N.ltb_spec C C); [lia|]. rewrite N.eqb_refl. reflexivity. }
    unfold buf_bytes. rewrite <- Hl. destruct (flook n C) as [id|] eqn:E.
    - destruct (ow_some _ _ _ Ro _ _ E) as (blk & Hf & ->). unfold hp_block. rewrite Hf. eauto.
    - rewrite (ow_none _ _ _ Ro _ E). exists []. auto. }
  destruct Hb as (open & Eo & Ho). exists open. split; [exact Eo|].
  rewrite (owns_total (S (N.to_nat C)) _ _ _ Ro).
  - cbn [sumn]. rewrite N2Nat.id, Ho. reflexivity.
  - intros i Hi. unfold flook. rewrite Hlen. destruct (N.ltb_spec i C); [lia|]. destruct (N.eqb_spec i C); [lia|reflexivity].
Qed.
