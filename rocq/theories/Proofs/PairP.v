(** A trie and a label store satisfying their contracts form a store. *)
From Verif.Proofs Require Export StoreP.
Local Open Scope N_scope.

Lemma rename_map (f : N -> option N) (m : gmap N (list N * list N)) :
  (forall x e, m !! x = Some e -> is_Some (f x)) ->
  (forall x y z, is_Some (m !! x) -> is_Some (m !! y) -> f x = Some z -> f y = Some z -> x = y) ->
  exists m' : gmap N (list N * list N),
    forall y e, m' !! y = Some e <-> exists x, f x = Some y /\ m !! x = Some e.
Proof.
  induction m as [|x0 e0 m Hx0 IH] using map_ind; intros Hs Hi.
  - exists ∅. intros y e. rewrite lookup_empty. split; [discriminate|].
    intros (x & _ & H). rewrite lookup_empty in H. discriminate.
  - destruct IH as (m' & Hm').
    { intros x e Hx. apply (Hs x e). rewrite lookup_insert_ne; [exact Hx|congruence]. }
    { intros x y z [ex Hx] [ey Hy]. apply Hi.
      - rewrite lookup_insert_ne by congruence. eauto.
      - rewrite lookup_insert_ne by congruence. eauto. }
    destruct (Hs x0 e0) as [y0 Hy0]; [apply lookup_insert|].
    exists (<[y0 := e0]> m'). intros y e. destruct (decide (y = y0)) as [->|Hne].
    + rewrite lookup_insert. split.
      * intros [= <-]. exists x0. split; [exact Hy0|apply lookup_insert].
      * intros (x & Hfx & Hx). assert (x = x0) as ->.
        { apply (Hi x x0 y0); [eauto|rewrite lookup_insert; eauto|exact Hfx|exact Hy0]. }
        rewrite lookup_insert in Hx. exact Hx.
    + rewrite lookup_insert_ne by congruence. rewrite Hm'. split.
      * intros (x & Hfx & Hx). exists x. split; [exact Hfx|]. rewrite lookup_insert_ne; [exact Hx|congruence].
      * intros (x & Hfx & Hx). exists x. split; [exact Hfx|].
        rewrite lookup_insert_ne in Hx; [exact Hx|congruence].
Qed.

Record link (loc : locmap) (lab : labmap) (m : gmap N (list N * list N)) : Prop := {
  lk_m : forall q x, loc !! q = Some x -> m !! x = lab !! q;
  lk_q : forall x e, m !! x = Some e -> exists q, loc !! q = Some x;
  lk_lab : forall q e, lab !! q = Some e -> is_Some (loc !! q) }.

Lemma link_fresh loc lab m q x : link loc lab m -> loc !! q = None -> (forall r, loc !! r <> Some x) ->
  link (<[q := x]> loc) lab m.
Proof.
  intros [H1 H2 H3] Hq Hx. split.
  - intros r y Hr. destruct (decide (r = q)) as [->|Hne].
    + rewrite lookup_insert in Hr. injection Hr as <-.
      assert (lab !! q = None) as ->.
      { destruct (lab !! q) as [e|] eqn:E; [|reflexivity]. destruct (H3 q e E). congruence. }
      destruct (m !! x) as [e|] eqn:E; [|reflexivity]. destruct (H2 x e E) as [r Hr]. destruct (Hx r Hr).
    + rewrite lookup_insert_ne in Hr by congruence. apply H1, Hr.
  - intros y e Hy. destruct (H2 y e Hy) as [r Hr]. exists r. rewrite lookup_insert_ne; [exact Hr|congruence].
  - intros r e Hr. destruct (H3 r e Hr) as [y Hy]. exists y. rewrite lookup_insert_ne; [exact Hy|congruence].
Qed.
Lemma link_set loc lab m q x e :
  (forall p r y, loc !! p = Some y -> loc !! r = Some y -> p = r) ->
  link loc lab m -> loc !! q = Some x -> link loc (<[q := e]> lab) (<[x := e]> m).
Proof.
  intros Hinj [H1 H2 H3] Hq. split.
  - intros r y Hr. destruct (decide (r = q)) as [->|Hne].
    + assert (y = x) as -> by congruence. rewrite !lookup_insert. reflexivity.
    + assert (y <> x) by (intros ->; apply Hne; apply (Hinj r q x); assumption).
      rewrite !lookup_insert_ne by congruence. apply H1, Hr.
  - intros y e' Hy. destruct (decide (y = x)) as [->|Hne]; [eauto|].
    rewrite lookup_insert_ne in Hy by congruence. eauto.
  - intros r e' Hr. destruct (decide (r = q)) as [->|Hne]; [eauto|].
    rewrite lookup_insert_ne in Hr by congruence. eauto.
Qed.

Lemma bits_limit_le sb : bits_limit sb <= 56.
Proof. unfold bits_limit. lia. Qed.
Lemma limit_57 b sb : b <= bits_limit sb -> 2 ^ b < 2 ^ 57.
Proof.
  intros H. pose proof (bits_limit_le sb). apply N.le_lt_trans with (2 ^ 56); [|reflexivity].
  apply pow2_le. lia.
Qed.

Lemma tight_more (L : lims) (mf b : N) (loc : locmap) (q : list N) (x : N) : loc !! q = None -> tight L mf b loc -> tight L mf b (<[q := x]> loc).
Proof. intros Eq [H|H]; [left; exact H|right]. rewrite map_size_insert, Eq. cbn [Nat.add]. lia. Qed.

Section bonsai_pair.
  Context (TO : trie_ops) (NO : nlm_ops) (L : lims) (mf sb : N) {Q : Type} (stable : nT NO -> N -> Q -> Prop).
  Context (rep : N -> tT TO -> locmap -> Prop) (fresh : N -> tT TO -> Prop).
  Context (nrep : N -> nT NO -> gmap N (list N * list N) -> Prop) (npt : nT NO -> N -> ptr -> Prop).
  Hypothesis HT : bonsai_ok TO L mf sb rep fresh.
  Hypothesis HN : blnm_ok NO stable nrep npt.

  Definition bsrep (b : N) (t : tT TO) (n : nT NO) (loc : locmap) (lab : labmap) : Prop :=
    rep b t loc /\ (t_size TO t < max_size_of (2 ^ b) mf /\ tight L mf b loc) /\
    exists m, nrep (2 ^ b) n m /\ link loc lab m.
  Definition bsfresh (b : N) (t : tT TO) (n : nT NO) : Prop := fresh b t /\ b = l_b0 L /\ nrep (2 ^ b) n ∅.

  Lemma bexpand_ok b t n loc lab m q x : rep b t loc -> tight L mf b loc -> nrep (2 ^ b) n m -> link loc lab m ->
    loc !! q = Some x -> N.of_nat (size loc) < l_max L ->
    wpx L (expand_if_needed TO NO x t n) (fun '(x', t', n') => exists b' loc', b <= b' /\
      bsrep b' t' n' loc' lab /\ loc' !! q = Some x' /\ dom loc' = dom loc /\ keeps NO stable n n' loc loc').
  Proof.
    intros Hr Htg Hn Hl Hq Hsz. unfold expand_if_needed. rewrite (bo_kind _ _ _ _ _ _ HT).
    rewrite (bo_needs _ _ _ _ _ _ HT b t loc Hr).
    destruct (N.leb_spec (max_size_of (2 ^ b) mf) (t_size TO t)) as [Hge|Hlt]; simpl negb.
    2:{ apply wpx_ret. exists b, loc. split; [lia|]. split; [split; [exact Hr|split; [split; [exact Hlt|exact Htg]|eauto]]|].
        split; [exact Hq|]. split; [reflexivity|]. intros r y p Hy Hp. eauto. }
    pose proof (bo_b _ _ _ _ _ _ HT b t loc Hr) as Hb.
    assert (Hblt : b < bits_limit sb).
    { destruct (N.eq_dec b (bits_limit sb)) as [E|]; [|lia]. rewrite E in Hge. pose proof (bo_lim _ _ _ _ _ _ HT) as HL. unfold node_limit in HL.
      rewrite (bo_size _ _ _ _ _ _ HT b t loc Hr) in Hge. lia. }
    pose proof (bits_limit_le sb) as Hlim.
    apply wpx_bind. eapply wpx_mono; [apply (bo_expand _ _ _ _ _ _ HT b t loc Hr Hblt Hsz)|].
    intros [nm t'] (loc' & mp & Hr' & Hdom & Hsz' & Hnms & Hnm & Hmp & Hmpi).
    assert (Hx : x < 2 ^ b) by (apply (bo_bound _ _ _ _ _ _ HT b t loc q x Hr Hq)).
    assert (Hsome : forall r y, loc !! r = Some y -> exists y', loc' !! r = Some y').
    { intros r y Hy. assert (Hd : r ∈ dom loc') by (rewrite Hdom; apply elem_of_dom; eauto).
      apply elem_of_dom in Hd as [y' Hy']. eauto. }
    assert (Hinj : forall i j y, mp !! i = Some y -> mp !! j = Some y -> i = j).
    { intros i j y Hi Hj. destruct (Hmpi i y Hi) as [p Hp]. destruct (Hmpi j y Hj) as [r Hpr].
      rewrite (Hmp p i Hp) in Hi. rewrite (Hmp r j Hpr) in Hj.
      assert (p = r) by (apply (bo_inj _ _ _ _ _ _ HT _ _ _ p r y Hr' Hi Hj)). congruence. }
    destruct (rename_map (fun i => mp !! i) m) as (m' & Hm').
    { intros y e Hy. destruct (lk_q _ _ _ Hl y e Hy) as [r Hy']. rewrite (Hmp r y Hy').
      destruct (Hsome r y Hy') as [y' Hy'']. eauto. }
    { intros i j y _ _. apply Hinj. }
    destruct (bn_expand _ _ _ _ HN (2 ^ b) n m nm (fun i => mp !! i) m' Hn Hnms) as (n' & En & Hn' & Hst).
    { exists b. split; [lia|reflexivity]. }
    { exact Hnm. }
    { intros i j y _ _. apply Hinj. }
    { intros i y _ Hi. destruct (Hmpi i y Hi) as [p Hp]. rewrite (Hmp p i Hp) in Hi.
      rewrite <- pow2_succ. apply (bo_bound _ _ _ _ _ _ HT _ _ _ p y Hr' Hi). }
    { intros y e Hy. destruct (lk_q _ _ _ Hl y e Hy) as [r Hry]. split.
      - apply (bo_bound _ _ _ _ _ _ HT b t loc r y Hr Hry).
      - rewrite (Hmp r y Hry). destruct (Hsome r y Hry) as [y' ->]. eauto. }
    { exact Hm'. }
    destruct (Hsome q x Hq) as [x' Hx'].
    rewrite (Hnm x Hx), (Hmp q x Hq), Hx', bind_ret. rewrite En, bind_ret. simpl default. apply wpx_ret.
    exists (b + 1), loc'. split; [lia|]. split; [|split; [exact Hx'|split; [exact Hdom|]]].
    - split; [exact Hr'|]. split; [split; [exact Hsz'|]|].
      { right. rewrite N.add_sub, <- (size_dom loc'), Hdom, size_dom, <- (bo_size _ _ _ _ _ _ HT b t loc Hr). exact Hge. }
      exists m'. rewrite pow2_succ. split; [exact Hn'|]. split.
      + intros r y Hy. assert (Hd : r ∈ dom loc) by (rewrite <- Hdom; apply elem_of_dom; eauto).
        apply elem_of_dom in Hd as [y0 Hy0]. rewrite <- (lk_m _ _ _ Hl r y0 Hy0).
        pose proof (Hmp r y0 Hy0) as E. rewrite Hy in E.
        destruct (m !! y0) as [e|] eqn:Em; [apply Hm'; eauto|].
        destruct (m' !! y) as [e|] eqn:Em'; [|reflexivity].
        apply Hm' in Em' as (i & Hi & Hmi). assert (i = y0) by (apply (Hinj i y0 y); assumption). congruence.
      + intros y e Hy. apply Hm' in Hy as (i & Hi & Hmi). destruct (Hmpi i y Hi) as [p Hp].
        exists p. rewrite <- (Hmp p i Hp). exact Hi.
      + intros r e Hy. destruct (lk_lab _ _ _ Hl r e Hy) as [y Hry]. destruct (Hsome r y Hry) as [y' ->]. eauto.
    - intros r y p Hy Hp. destruct (Hsome r y Hy) as [y' Hy']. exists y'. split; [exact Hy'|].
      apply (Hst y y' p Hp). rewrite (Hmp r y Hy). exact Hy'.
  Qed.

  Lemma dom_insert_new (loc : locmap) q x : dom (<[q := x]> loc) = {[ q ]} ∪ dom loc.
  Proof. apply dom_insert_L. Qed.

  Lemma bonsai_store_ok : store_ok TO NO L mf sb false stable bsrep bsfresh npt.
  Proof.
    split.
    - apply (bo_lim _ _ _ _ _ _ HT).
    - apply (bo_default _ _ _ _ _ _ HT).
    - intros cb Hcb Hb0. destruct (bo_new _ _ _ _ _ _ HT cb Hcb Hb0) as (t & Et & Hf).
      destruct (bo_fresh _ _ _ _ _ _ HT _ _ Hf) as [_ Hc]. pose proof (bits_limit_le sb).
      destruct (bn_new _ _ _ _ HN (N.max 16 cb)) as (n & En & Hn); [lia|].
      exists t, n. rewrite Hc. split; [exact Et|]. split; [exact En|]. split; [exact Hf|]. split; [symmetry; exact Hb0|exact Hn].
    - intros b t n [Hf _]. apply (bo_fresh _ _ _ _ _ _ HT _ _ Hf).
    - intros b t n (_ & Eb & _). exact Eb.
    - intros b t n k (Hf & Eb & Hn) Hs. unfold add_first. rewrite (bo_kind _ _ _ _ _ _ HT).
      destruct (bo_add_root _ _ _ _ _ _ HT b t Hf) as (t' & r & Et & Hr & Hsz). rewrite Et, bind_ret.
      destruct (bo_root _ _ _ _ _ _ HT b t' _ Hr) as (r' & Er & Hr'). rewrite Er, bind_ret.
      apply lookup_singleton_Some in Hr' as [_ <-].
      destruct (bn_insert _ _ _ _ HN (2 ^ b) n ∅ r k Hn) as (p & n' & En & Hn' & Hp & _).
      { apply (bo_bound _ _ _ _ _ _ HT b t' _ [] r Hr). apply lookup_singleton. }
      { apply lookup_empty. } { exact Hs. }
      rewrite En, bind_ret. exists p, t', n', r. split; [reflexivity|]. split; [|exact Hp].
      split; [exact Hr|]. split; [split; [exact Hsz|left; lia]|]. exists {[ r := (k, zeros (n_vs NO)) ]}. split; [exact Hn'|]. split.
      + intros q x Hq. apply lookup_singleton_Some in Hq as [<- <-]. rewrite !lookup_singleton. reflexivity.
      + intros x e Hx. apply lookup_singleton_Some in Hx as [<- <-]. exists []. apply lookup_singleton.
      + intros q e Hq. apply lookup_singleton_Some in Hq as [<- _]. rewrite lookup_singleton. eauto.
    - intros b t n loc lab (Hr & _). apply (bo_b _ _ _ _ _ _ HT b t loc Hr).
    - intros b t n loc lab (Hr & _). apply (bo_capa _ _ _ _ _ _ HT b t loc Hr).
    - intros b t n loc lab (Hr & _). apply (bo_size _ _ _ _ _ _ HT b t loc Hr).
    - intros b t n loc lab (Hr & [Hs _] & _). rewrite (bo_kind _ _ _ _ _ _ HT). exact Hs.
    - intros b t n loc lab (_ & [_ Hg] & _). exact Hg.
    - intros b t n loc lab (Hr & _). apply (bo_root _ _ _ _ _ _ HT b t loc Hr).
    - intros b t n loc lab p q x (Hr & _). apply (bo_inj _ _ _ _ _ _ HT b t loc p q x Hr).
    - intros b t n loc lab s p (Hr & _). apply (bo_pref _ _ _ _ _ _ HT b t loc s p Hr).
    - intros b t n loc lab p x (Hr & _) Hp. apply N.lt_le_trans with (2 ^ b).
      + apply (bo_bound _ _ _ _ _ _ HT b t loc p x Hr Hp).
      + pose proof (limit_57 b sb). pose proof (bo_b _ _ _ _ _ _ HT b t loc Hr). lia.
    - rewrite (bo_kind _ _ _ _ _ _ HT). discriminate.
    - intros b t n loc lab p e (Hr & _ & m & _ & Hl) He. apply (lk_lab _ _ _ Hl p e He).
    - intros b t n loc lab p v s (Hr & _). apply (bo_find _ _ _ _ _ _ HT b t loc p v s Hr).
    - intros b t n loc lab q x k l v (Hr & _ & m & Hn & Hl) Hq Hlab Hk.
      apply (bn_compare _ _ _ _ HN (2 ^ b) n m x k l v Hn); [|exact Hk]. rewrite (lk_m _ _ _ Hl q x Hq). exact Hlab.
    - intros b t n loc lab p x (Hr & [Hs Hg] & m & Hn & Hl) Hp Hst Hroom. unfold add_step.
      apply wpx_bind. eapply wpx_mono; [apply (bo_add _ _ _ _ _ _ HT b t loc p x step_symb Hr Hp Hst Hs Hroom)|].
      intros [[r x'] t'] Hadd. destruct (loc !! (step_symb :: p)) as [y|] eqn:Ey.
      + destruct Hadd as (-> & -> & Hr'). apply wpx_ret. exists b, loc. split; [lia|].
        split; [split; [exact Hr'|split; [split; [|exact Hg]|eauto]]|split; [exact Ey|split]].
        * rewrite (bo_size _ _ _ _ _ _ HT b t' loc Hr'), <- (bo_size _ _ _ _ _ _ HT b t loc Hr). exact Hs.
        * assert (step_symb :: p ∈ dom loc) by (apply elem_of_dom; eauto). set_solver.
        * intros q z pt Hz Hpt. eauto.
      + destruct Hadd as (-> & Hfr & Hr'). apply wpx_bind.
        eapply wpx_mono; [apply (bexpand_ok b t' n _ lab m (step_symb :: p) x' Hr' (tight_more _ _ _ _ _ _ Ey Hg) Hn)|].
        * apply link_fresh; assumption.
        * apply lookup_insert.
        * rewrite map_size_insert, Ey. cbn [Nat.add]. lia.
        * intros [[x2 t2] n2] (b2 & loc2 & Hb2 & Hs2 & Hx2 & Hd2 & Hk2).
          rewrite (bo_kind _ _ _ _ _ _ HT). apply wpx_ret.
          exists b2, loc2. split; [exact Hb2|]. split; [exact Hs2|]. split; [exact Hx2|]. split.
          { rewrite Hd2. apply dom_insert_L. }
          intros q z pt Hz Hpt. apply (Hk2 q z pt); [|exact Hpt].
          rewrite lookup_insert_ne; [exact Hz|congruence].
    - intros b t n loc lab p x s k (Hr & [Hs Hg] & m & Hn & Hl) Hp Hss _ Hk Hsm Hroom. unfold add_leaf.
      apply wpx_bind. eapply wpx_mono; [apply (bo_add _ _ _ _ _ _ HT b t loc p x s Hr Hp Hss Hs Hroom)|].
      intros [[r x'] t'] Hadd. destruct (loc !! (s :: p)) as [y|] eqn:Ey.
      + destruct Hadd as (-> & -> & Hr'). apply wpx_ret. exists b, loc. split; [lia|]. split; [exact Ey|].
        split; [intros q z pt Hz Hpt; eauto|]. split; [reflexivity|]. split; [|reflexivity].
        split; [exact Hr'|split; [split; [|exact Hg]|eauto]].
        rewrite (bo_size _ _ _ _ _ _ HT b t' loc Hr'), <- (bo_size _ _ _ _ _ _ HT b t loc Hr). exact Hs.
      + destruct Hadd as (-> & Hfr & Hr'). apply wpx_bind.
        eapply wpx_mono; [apply (bexpand_ok b t' n _ lab m (s :: p) x' Hr' (tight_more _ _ _ _ _ _ Ey Hg) Hn)|].
        * apply link_fresh; assumption.
        * apply lookup_insert.
        * rewrite map_size_insert, Ey. cbn [Nat.add]. lia.
        * intros [[x2 t2] n2] (b2 & loc2 & Hb2 & (Hr2 & Hsz2 & m2 & Hn2 & Hl2) & Hx2 & Hd2 & Hk2).
          rewrite (bo_kind _ _ _ _ _ _ HT).
          destruct (bn_insert _ _ _ _ HN (2 ^ b2) n2 m2 x2 k Hn2) as (pt & n3 & En & Hn3 & Hpt & Hst3).
          { apply (bo_bound _ _ _ _ _ _ HT b2 t2 loc2 (s :: p) x2 Hr2 Hx2). }
          { rewrite (lk_m _ _ _ Hl2 _ _ Hx2). destruct (lab !! (s :: p)) as [e|] eqn:E; [|reflexivity].
            destruct (lk_lab _ _ _ Hl _ _ E). congruence. }
          { exact Hsm. }
          rewrite En, bind_ret. apply wpx_ret.
          exists b2, loc2. split; [exact Hb2|]. split; [exact Hx2|]. split.
          { intros q z pt2 Hz Hpt2. destruct (Hk2 q z pt2) as (z' & Hz' & Hpt'); [|exact Hpt2|].
            - rewrite lookup_insert_ne; [exact Hz|congruence].
            - exists z'. split; [exact Hz'|]. apply Hst3. exact Hpt'. }
          exists pt. split; [reflexivity|]. split; [exact Hpt|]. split; [rewrite Hd2; apply dom_insert_L|].
          split; [exact Hr2|]. split; [exact Hsz2|]. eexists. split; [exact Hn3|].
          apply link_set; [|exact Hl2|exact Hx2].
          intros p1 p2 y H1 H2. apply (bo_inj _ _ _ _ _ _ HT b2 t2 loc2 p1 p2 y Hr2 H1 H2).
    - intros b t n loc lab p x y (Hr & Hs & Hn) Hp Hst Hroom Ey. unfold add_step.
      rewrite (bo_add_old _ _ _ _ _ _ HT b t loc p x step_symb y Hr Hp Hst Ey), bind_ret. apply wpx_ret.
      split; [reflexivity|]. split; [reflexivity|]. exists b. split; [split; [exact Hr|split; assumption]|left; auto].
    - intros b t n loc lab p x s k y (Hr & Hs & Hn) Hp Hss _ Hroom Ey. unfold add_leaf.
      rewrite (bo_add_old _ _ _ _ _ _ HT b t loc p x s y Hr Hp Hss Ey), bind_ret. apply wpx_ret.
      split; [reflexivity|]. split; [reflexivity|]. split; [reflexivity|].
      exists b. split; [split; [exact Hr|split; assumption]|left; auto].
    - intros b t n loc lab q x p (Hr & Hs & m & Hn & Hl) Hq Hp.
      destruct (bn_read _ _ _ _ HN _ _ _ _ _ Hn Hp) as (l & v & Hm & E). exists l, v. split; [|exact E].
      rewrite <- (lk_m _ _ _ Hl q x Hq). exact Hm.
    - intros b t n loc lab q x p l v w (Hr & Hs & m & Hn & Hl) Hq Hp Hlab Hw.
      rewrite <- (lk_m _ _ _ Hl q x Hq) in Hlab.
      destruct (bn_write _ _ _ _ HN _ _ _ _ _ _ _ w Hn Hp Hlab Hw) as (h & E & Hn' & Hk).
      exists h. split; [exact E|]. split; [|exact Hk]. split; [exact Hr|]. split; [exact Hs|].
      eexists. split; [exact Hn'|]. apply link_set; [|exact Hl|exact Hq].
      intros p1 p2 y H1 H2. apply (bo_inj _ _ _ _ _ _ HT b t loc p1 p2 y Hr H1 H2).
  Qed.
End bonsai_pair.

Section fkhash_pair.
  Context (TO : trie_ops) (NO : nlm_ops) (L : lims) (mf sb : N) (B : bool) {Q : Type} (stable : nT NO -> N -> Q -> Prop).
  Context (rep : N -> tT TO -> locmap -> Prop) (fresh : N -> tT TO -> Prop).
  Context (nrep : N -> nT NO -> gmap N (list N * list N) -> Prop) (npt : nT NO -> N -> ptr -> Prop).
  Hypothesis Hmf : 1 <= mf <= 99.
  Hypothesis HT : fkhash_ok TO L mf sb B rep fresh.
  Hypothesis HN : flnm_ok NO stable nrep npt.

  Definition fsrep (b : N) (t : tT TO) (n : nT NO) (loc : locmap) (lab : labmap) : Prop :=
    (rep b t loc /\ tight L mf b loc) /\ exists m, nrep (N.of_nat (size loc)) n m /\ link loc lab m.
  Definition fsfresh (b : N) (t : tT TO) (n : nT NO) : Prop := fresh b t /\ b = l_b0 L /\ nrep 0 n ∅.

  Lemma node_limit_57 : node_limit mf sb < 2 ^ 57.
  Proof.
    unfold node_limit. pose proof (bits_limit_le sb).
    apply N.lt_le_trans with (2 ^ bits_limit sb); [apply max_size_lt; lia|]. apply pow2_le. lia.
  Qed.
  Lemma fk_size_57 b t loc : rep b t loc -> N.of_nat (size loc) < 2 ^ 57.
  Proof.
    intros Hr. rewrite <- (fo_size _ _ _ _ _ _ _ HT b t loc Hr).
    pose proof (fo_load _ _ _ _ _ _ _ HT b t loc Hr). pose proof (fo_b _ _ _ _ _ _ _ HT b t loc Hr).
    pose proof (bits_limit_le sb). pose proof (limit_57 b sb). pose proof (max_size_lt b mf). lia.
  Qed.

  Lemma tight_step (b b' : N) (loc : locmap) : b' = b \/ b' = b + 1 /\ max_size_of (2 ^ b) mf <= N.of_nat (size loc) ->
    tight L mf b loc -> tight L mf b' loc.
  Proof. intros [->|[-> H]] Hg; [exact Hg|]. right. rewrite N.add_sub. exact H. Qed.
  Lemma fkhash_store_ok : store_ok TO NO L mf sb B stable fsrep fsfresh npt.
  Proof.
    split.
    - apply (fo_lim _ _ _ _ _ _ _ HT).
    - apply (fo_default _ _ _ _ _ _ _ HT).
    - intros cb Hcb Hb0. destruct (fo_new _ _ _ _ _ _ _ HT cb Hcb Hb0) as (t & Et & Hf).
      destruct (fo_fresh _ _ _ _ _ _ _ HT _ _ Hf) as [_ Hc]. pose proof (bits_limit_le sb).
      destruct (fn_new _ _ _ _ HN (N.max 16 cb)) as (n & En & Hn); [lia|].
      exists t, n. rewrite Hc. split; [exact Et|]. split; [exact En|]. split; [exact Hf|]. split; [symmetry; exact Hb0|exact Hn].
    - intros b t n [Hf _]. apply (fo_fresh _ _ _ _ _ _ _ HT _ _ Hf).
    - intros b t n (_ & Eb & _). exact Eb.
    - intros b t n k (Hf & Eb & Hn) Hs. unfold add_first. rewrite (fo_kind _ _ _ _ _ _ _ HT).
      destruct (fo_add_root _ _ _ _ _ _ _ HT b t Hf) as (t' & Et & Hr). rewrite Et, bind_ret.
      destruct (fn_append _ _ _ _ HN 0 n ∅ k Hn) as (p & n' & En & Hn' & Hp & _).
      { reflexivity. } { exact Hs. }
      rewrite En, bind_ret. exists p, t', n', 0. split; [reflexivity|]. split; [|exact Hp].
      split; [split; [exact Hr|left; lia]|]. exists {[ 0 := (k, zeros (n_vs NO)) ]}. split.
      { rewrite map_size_singleton. exact Hn'. }
      split.
      + intros q x Hq. apply lookup_singleton_Some in Hq as [<- <-]. rewrite !lookup_singleton. reflexivity.
      + intros x e Hx. apply lookup_singleton_Some in Hx as [<- <-]. exists []. apply lookup_singleton.
      + intros q e Hq. apply lookup_singleton_Some in Hq as [<- _]. rewrite lookup_singleton. eauto.
    - intros b t n loc lab ([Hr _] & _). apply (fo_b _ _ _ _ _ _ _ HT b t loc Hr).
    - intros b t n loc lab ([Hr _] & _). apply (fo_capa _ _ _ _ _ _ _ HT b t loc Hr).
    - intros b t n loc lab ([Hr _] & _). apply (fo_size _ _ _ _ _ _ _ HT b t loc Hr).
    - intros b t n loc lab ([Hr _] & _). rewrite (fo_kind _ _ _ _ _ _ _ HT). apply (fo_load _ _ _ _ _ _ _ HT b t loc Hr).
    - intros b t n loc lab ([_ Hg] & _). exact Hg.
    - intros b t n loc lab ([Hr _] & _). apply (fo_root _ _ _ _ _ _ _ HT b t loc Hr).
    - intros b t n loc lab p q x ([Hr _] & _). apply (fo_inj _ _ _ _ _ _ _ HT b t loc p q x Hr).
    - intros b t n loc lab s p ([Hr _] & _). apply (fo_pref _ _ _ _ _ _ _ HT b t loc s p Hr).
    - intros b t n loc lab p x ([Hr _] & _) Hp.
      pose proof (fo_bound _ _ _ _ _ _ _ HT b t loc p x Hr Hp). pose proof (fk_size_57 b t loc Hr). lia.
    - intros _ b t n loc lab ([Hr _] & m & Hn & _). split; [apply (fn_size _ _ _ _ HN _ _ _ Hn)|].
      intros p x. apply (fo_bound _ _ _ _ _ _ _ HT b t loc p x Hr).
    - intros b t n loc lab p e ([Hr _] & m & _ & Hl) He. apply (lk_lab _ _ _ Hl p e He).
    - intros b t n loc lab p v s ([Hr _] & _). apply (fo_find _ _ _ _ _ _ _ HT b t loc p v s Hr).
    - intros b t n loc lab q x k l v ([Hr Hg] & m & Hn & Hl) Hq Hlab Hk.
      apply (fn_compare _ _ _ _ HN _ n m x k l v Hn); [|exact Hk]. rewrite (lk_m _ _ _ Hl q x Hq). exact Hlab.
    - intros b t n loc lab p x ([Hr Hg] & m & Hn & Hl) Hp Hst Hroom. unfold add_step.
      apply wpx_bind. eapply wpx_mono; [apply (fo_add _ _ _ _ _ _ _ HT b t loc p x step_symb Hr Hp Hst)|].
      { intros _. discriminate. } { exact Hroom. }
      intros [[r x'] t'] (b' & Hb' & Hadd). destruct (loc !! (step_symb :: p)) as [y|] eqn:Ey.
      + destruct Hadd as (-> & -> & Hr'). apply wpx_ret. exists b', loc. split; [lia|].
        split; [split; [split; [exact Hr'|apply (tight_step b); assumption]|eauto]|split; [exact Ey|split]].
        * assert (step_symb :: p ∈ dom loc) by (apply elem_of_dom; eauto). set_solver.
        * intros q z pt Hz Hpt. eauto.
      + destruct Hadd as (-> & -> & Hr'). unfold expand_if_needed. rewrite (fo_kind _ _ _ _ _ _ _ HT).
        rewrite bind_ret. rewrite (fn_size _ _ _ _ HN _ _ _ Hn), assert_true by apply N.eqb_refl. rewrite bind_ret.
        destruct (fn_dummy _ _ _ _ HN _ n m Hn) as (n' & En & Hn' & Hst').
        { pose proof node_limit_57. pose proof (fo_lim _ _ _ _ _ _ _ HT). lia. }
        rewrite En, bind_ret. apply wpx_ret. exists b'. eexists. split; [lia|].
        split; [|split; [apply lookup_insert|split; [apply dom_insert_L|]]].
        * split; [split; [exact Hr'|apply tight_more; [exact Ey|apply (tight_step b); assumption]]|]. exists m. rewrite map_size_insert, Ey. split.
          { replace (N.of_nat (S (size loc))) with (N.of_nat (size loc) + 1) by lia. exact Hn'. }
          apply link_fresh; [exact Hl|exact Ey|]. intros q Hq.
          pose proof (fo_bound _ _ _ _ _ _ _ HT b t loc q _ Hr Hq). lia.
        * intros q z pt Hz Hpt. exists z. split; [rewrite lookup_insert_ne; [exact Hz|congruence]|].
          apply Hst', Hpt.
    - intros b t n loc lab p x s k ([Hr Hg] & m & Hn & Hl) Hp Hss HB Hk Hsm Hroom. unfold add_leaf.
      apply wpx_bind. eapply wpx_mono; [apply (fo_add _ _ _ _ _ _ _ HT b t loc p x s Hr Hp Hss HB Hroom)|].
      intros [[r x'] t'] (b' & Hb' & Hadd). destruct (loc !! (s :: p)) as [y|] eqn:Ey.
      + destruct Hadd as (-> & -> & Hr'). apply wpx_ret. exists b', loc. split; [lia|]. split; [exact Ey|].
        split; [intros q z pt Hz Hpt; eauto|]. split; [reflexivity|]. split; [|reflexivity].
        split; [split; [exact Hr'|apply (tight_step b); assumption]|eauto].
      + destruct Hadd as (-> & -> & Hr'). unfold expand_if_needed. rewrite (fo_kind _ _ _ _ _ _ _ HT).
        rewrite bind_ret. rewrite (fn_size _ _ _ _ HN _ _ _ Hn), assert_true by apply N.eqb_refl. rewrite bind_ret.
        destruct (fn_append _ _ _ _ HN _ n m k Hn) as (pt & n' & En & Hn' & Hpt & Hst').
        { pose proof node_limit_57. pose proof (fo_lim _ _ _ _ _ _ _ HT). lia. } { exact Hsm. }
        assert (Hfr : forall q, loc !! q <> Some (N.of_nat (size loc))).
        { intros q Hq. pose proof (fo_bound _ _ _ _ _ _ _ HT b t loc q _ Hr Hq). lia. }
        rewrite En, bind_ret. apply wpx_ret. exists b'. eexists. split; [lia|]. split; [apply lookup_insert|].
        split.
        { intros q z p2 Hz Hp2. exists z. split; [rewrite lookup_insert_ne; [exact Hz|congruence]|].
          apply Hst', Hp2. }
        exists pt. split; [reflexivity|]. split; [exact Hpt|]. split; [apply dom_insert_L|].
        split; [split; [exact Hr'|apply tight_more; [exact Ey|apply (tight_step b); assumption]]|]. eexists. rewrite map_size_insert, Ey. split.
        { replace (N.of_nat (S (size loc))) with (N.of_nat (size loc) + 1) by lia. exact Hn'. }
        apply link_set.
        * intros p1 p2 y H1 H2. apply (fo_inj _ _ _ _ _ _ _ HT b' t' _ p1 p2 y Hr' H1 H2).
        * apply link_fresh; assumption.
        * apply lookup_insert.
    - intros b t n loc lab p x y ([Hr Hg] & Hn) Hp Hst Hroom Ey. unfold add_step.
      apply wpx_bind. eapply wpx_mono; [apply (fo_add_old _ _ _ _ _ _ _ HT b t loc p x step_symb y Hr Hp Hst)|].
      { intros _. discriminate. } { exact Hroom. } { exact Ey. }
      intros [[r x'] t'] (-> & -> & Ht). apply wpx_ret. split; [reflexivity|]. split; [reflexivity|].
      destruct Ht as [->|[Hr' Hge]].
      + exists b. split; [split; [split; assumption|exact Hn]|left; auto].
      + exists (b + 1). split; [split; [split; [exact Hr'|apply (tight_step b); auto]|exact Hn]|].
        right. split; [apply (fo_kind _ _ _ _ _ _ _ HT)|]. split; [lia|exact Hge].
    - intros b t n loc lab p x s k y ([Hr Hg] & Hn) Hp Hss HB Hroom Ey. unfold add_leaf.
      apply wpx_bind. eapply wpx_mono; [apply (fo_add_old _ _ _ _ _ _ _ HT b t loc p x s y Hr Hp Hss HB Hroom Ey)|].
      intros [[r x'] t'] (-> & -> & Ht). apply wpx_ret. split; [reflexivity|]. split; [reflexivity|]. split; [reflexivity|].
      destruct Ht as [->|[Hr' Hge]].
      + exists b. split; [split; [split; assumption|exact Hn]|left; auto].
      + exists (b + 1). split; [split; [split; [exact Hr'|apply (tight_step b); auto]|exact Hn]|].
        right. split; [apply (fo_kind _ _ _ _ _ _ _ HT)|]. split; [lia|exact Hge].
    - intros b t n loc lab q x p ([Hr Hg] & m & Hn & Hl) Hq Hp.
      destruct (fn_read _ _ _ _ HN _ _ _ _ _ Hn Hp) as (l & v & Hm & E). exists l, v. split; [|exact E].
      rewrite <- (lk_m _ _ _ Hl q x Hq). exact Hm.
    - intros b t n loc lab q x p l v w ([Hr Hg] & m & Hn & Hl) Hq Hp Hlab Hw.
      rewrite <- (lk_m _ _ _ Hl q x Hq) in Hlab.
      destruct (fn_write _ _ _ _ HN _ _ _ _ _ _ _ w Hn Hp Hlab Hw) as (h & E & Hn' & Hk).
      exists h. split; [exact E|]. split; [|exact Hk]. split; [split; [exact Hr|exact Hg]|].
      eexists. split; [exact Hn'|]. apply link_set; [|exact Hl|exact Hq].
      intros p1 p2 y H1 H2. apply (fo_inj _ _ _ _ _ _ _ HT b t loc p1 p2 y Hr H1 H2).
  Qed.
End fkhash_pair.
