(** Histories of a trie: from representation contracts to [dynamic_trie]. *)
From Verif.Props Require Export TrieSpec.
From Verif.Proofs Require Export PlainOpsP CompactOpsP.
Local Open Scope N_scope.

Section contract.
  Context (TO : trie_ops) (mf sb : N) (forbid : bool) (start : outcome (tT TO)) (b0 : N) (sat : N -> N -> Prop).
  Notation bits := (trie_bits TO).
  Notation limit t := (max_size_of (2 ^ bits t) mf).

  Record dyn_ok (rep : tT TO -> locmap -> Prop) : Prop := {
    d_mf : 1 <= mf <= 99;
    d_start : exists t0 t r, start = Ret t0 /\ t_add_root TO t0 = Ret t /\ t_get_root TO t = Ret r /\ rep t {[ [] := r ]};
    d_start_bits : forall t0 t, start = Ret t0 -> t_add_root TO t0 = Ret t -> bits t = b0;
    d_bits : forall t loc, rep t loc -> 16 <= bits t <= 56;
    d_size : forall t loc, rep t loc -> t_size TO t = N.of_nat (size loc);
    d_load : forall t loc, rep t loc -> t_size TO t <= limit t;
    d_root : forall t loc, rep t loc -> exists r, t_get_root TO t = Ret r /\ loc !! [] = Some r;
    d_fkroot : forall t loc r, t_kind TO = Fkhash -> rep t loc -> loc !! [] = Some r -> r = 0;
    d_inj : forall t loc p q x, rep t loc -> loc !! p = Some x -> loc !! q = Some x -> p = q;
    d_pref : forall t loc s p, rep t loc -> is_Some (loc !! (s :: p)) -> is_Some (loc !! p);
    d_bound : forall t loc p x, rep t loc -> loc !! p = Some x -> x < 2 ^ bits t;
    d_find : forall t loc p v s, rep t loc -> loc !! p = Some v -> s < 2 ^ sb ->
      t_find_child TO t v s = Ret (default nil_id (loc !! (s :: p)));
    d_again : forall t loc p v s y, rep t loc -> loc !! p = Some v -> s < 2 ^ sb ->
      (forbid = true -> s :: p <> [0]) -> (t_kind TO = Fkhash -> t_size TO t < limit t \/ can_grow TO sb t) ->
      loc !! (s :: p) = Some y ->
      wpx (t_kind TO = Fkhash /\ sat (bits t) (t_size TO t)) (t_add_child TO t v s)
        (fun '(r, x, t') => r = false /\ x = y /\ rep t' loc /\ (t_kind TO = Bonsai -> t' = t));
    d_new : forall t loc p v s, rep t loc -> loc !! p = Some v -> s < 2 ^ sb ->
      (forbid = true -> s :: p <> [0]) -> (t_kind TO = Fkhash -> t_size TO t < limit t \/ can_grow TO sb t) ->
      loc !! (s :: p) = None -> (t_kind TO = Bonsai -> t_size TO t < limit t) ->
      wpx (sat (bits t) (t_size TO t)) (t_add_child TO t v s)
        (fun '(r, x, t') => r = true /\ (forall q, loc !! q <> Some x) /\ (t_kind TO = Fkhash -> x = t_size TO t) /\
           (t_size TO t < limit t -> bits t' = bits t) /\ rep t' (<[s :: p := x]> loc));
    d_full : forall t loc p v s, rep t loc -> loc !! p = Some v -> s < 2 ^ sb -> t_kind TO = Bonsai ->
      loc !! (s :: p) = None -> t_size TO t = limit t -> t_add_child TO t v s = Ret (false, v, t);
    d_needs : forall t loc, rep t loc -> t_kind TO = Bonsai -> t_needs_to_expand TO t = (limit t <=? t_size TO t);
    d_expand : forall t loc, rep t loc -> t_kind TO = Bonsai -> 1 <= sb -> can_grow TO sb t ->
      wpx (sat (bits t + 1) (t_size TO t)) (t_expand TO t) (fun '(nm, t') => exists loc' (mp : gmap N N),
        rep t' loc' /\ bits t' = bits t + 1 /\ dom loc' = dom loc /\ nm_size nm = 2 ^ bits t /\
        (forall i, i < 2 ^ bits t -> nm_get nm i = Ret (default UINT64_MAX (mp !! i))) /\
        (forall p v, loc !! p = Some v -> mp !! v = loc' !! p) /\
        (forall i y, mp !! i = Some y -> exists p, loc !! p = Some i)) }.

  (** Node [h] is at path [paths!h]. *)
  Record tree_of (loc : locmap) (paths : list (list N)) (ids : list N) (T : tree) : Prop := {
    to_len : length paths = length ids;
    to_nodes : nodes T = length ids;
    to_nd : NoDup paths;
    to_root : paths !! 0%nat = Some [];
    to_loc : forall h p, paths !! h = Some p -> loc !! p = ids !! h;
    to_all : forall p, is_Some (loc !! p) -> p ∈ paths;
    to_kids : forall h s c, kids T !! (h, s) = Some c <-> exists p, paths !! h = Some p /\ paths !! c = Some (s :: p) }.

  Context (rep : tT TO -> locmap -> Prop).
  Hypothesis HD : dyn_ok rep.

  Lemma to_path loc paths ids T h v : tree_of loc paths ids T -> ids !! h = Some v ->
    exists p, paths !! h = Some p /\ loc !! p = Some v.
  Proof.
    intros H Hh. pose proof (lookup_lt_Some _ _ _ Hh) as Hl. rewrite <- (to_len _ _ _ _ H) in Hl.
    destruct (lookup_lt_is_Some_2 _ _ Hl) as [p Hp]. exists p. split; [exact Hp|].
    rewrite (to_loc _ _ _ _ H h p Hp). exact Hh.
  Qed.
  Lemma to_size loc paths ids T : tree_of loc paths ids T -> size loc = length ids.
  Proof.
    intros H. rewrite <- (to_len _ _ _ _ H). rewrite <- (size_dom loc).
    assert (E : dom loc = list_to_set paths).
    { apply set_eq. intros p. rewrite elem_of_dom, elem_of_list_to_set. split; [apply (to_all _ _ _ _ H)|].
      intros Hp. apply elem_of_list_lookup in Hp as [h Hh]. rewrite (to_loc _ _ _ _ H h p Hh).
      apply lookup_lt_is_Some_2. rewrite <- (to_len _ _ _ _ H). apply (lookup_lt_Some _ _ _ Hh). }
    rewrite E. apply size_list_to_set, H.
  Qed.
  Lemma to_kid loc paths ids T h p s : tree_of loc paths ids T -> paths !! h = Some p ->
    loc !! (s :: p) = (kids T !! (h, s)) ≫= fun c => ids !! c.
  Proof.
    intros H Hp. destruct (kids T !! (h, s)) as [c|] eqn:E; cbn.
    - apply (to_kids _ _ _ _ H) in E as (p' & Hp' & Hc). assert (p' = p) by congruence. subst p'.
      apply (to_loc _ _ _ _ H c _ Hc).
    - destruct (loc !! (s :: p)) as [x|] eqn:Ex; [|reflexivity]. exfalso.
      assert (Hin : (s :: p) ∈ paths) by (apply (to_all _ _ _ _ H); eauto).
      apply elem_of_list_lookup in Hin as [c Hc].
      assert (E2 : kids T !! (h, s) = Some c) by (apply (to_kids _ _ _ _ H); eauto). congruence.
  Qed.
  Lemma to_kid_none loc paths ids T h p s : tree_of loc paths ids T -> paths !! h = Some p ->
    kids T !! (h, s) = None <-> loc !! (s :: p) = None.
  Proof.
    intros H Hp. rewrite (to_kid _ _ _ _ _ _ _ H Hp). destruct (kids T !! (h, s)) as [c|] eqn:E; cbn; [|tauto].
    apply (to_kids _ _ _ _ H) in E as (p' & _ & Hc). pose proof (lookup_lt_Some _ _ _ Hc) as Hl.
    rewrite (to_len _ _ _ _ H) in Hl. destruct (lookup_lt_is_Some_2 ids c Hl) as [x Hx]. rewrite Hx. split; discriminate.
  Qed.
  Lemma to_nodup t loc paths ids T : rep t loc -> tree_of loc paths ids T -> NoDup ids.
  Proof.
    intros Hr H. apply NoDup_alt. intros i j x Hi Hj.
    destruct (to_path _ _ _ _ _ _ H Hi) as (p & Hp & Lp). destruct (to_path _ _ _ _ _ _ H Hj) as (q & Hq & Lq).
    assert (p = q) by (eapply (d_inj _ HD); eauto). subst q.
    apply (proj1 (NoDup_alt paths) (to_nd _ _ _ _ H) i j p Hp Hq).
  Qed.
  Lemma to_forbid loc paths ids T h p s : tree_of loc paths ids T -> paths !! h = Some p ->
    (forbid = true -> (h, s) <> (0%nat, 0)) -> forbid = true -> s :: p <> [0].
  Proof.
    intros H Hp Hf Hb E. apply (Hf Hb). injection E as -> ->.
    rewrite (proj1 (NoDup_alt paths) (to_nd _ _ _ _ H) h 0%nat [] Hp (to_root _ _ _ _ H)). reflexivity.
  Qed.
  Lemma to_in loc paths ids T x : tree_of loc paths ids T -> (forall q, loc !! q <> Some x) -> ~ In x ids.
  Proof.
    intros H Hx Hin. apply elem_of_list_In, elem_of_list_lookup in Hin as [h Hh].
    destruct (to_path _ _ _ _ _ _ H Hh) as (p & _ & Hp). apply (Hx p Hp).
  Qed.
  Lemma to_new t loc paths ids T h p s x : rep t loc -> tree_of loc paths ids T -> paths !! h = Some p -> loc !! (s :: p) = None ->
    tree_of (<[s :: p := x]> loc) (paths ++ [s :: p]) (ids ++ [x]) (with_child T h s).
  Proof.
    intros Hr H Hp Hn.
    assert (Hnin : (s :: p) ∉ paths).
    { intros Hin. apply elem_of_list_lookup in Hin as [c Hc]. rewrite (to_loc _ _ _ _ H c _ Hc) in Hn.
      apply lookup_ge_None in Hn. apply lookup_lt_Some in Hc. rewrite (to_len _ _ _ _ H) in Hc. lia. }
    split.
    - rewrite !app_length, (to_len _ _ _ _ H). reflexivity.
    - cbn [with_child nodes]. rewrite app_length, (to_nodes _ _ _ _ H). simpl. lia.
    - apply NoDup_app. split; [apply H|]. split; [|apply NoDup_singleton].
      intros q Hq Hq'. apply elem_of_list_singleton in Hq'. subst q. auto.
    - rewrite lookup_app_l; [apply H|]. apply lookup_lt_Some in Hp. lia.
    - intros h' q Hq. apply lookup_app_Some in Hq as [Hq|[Hl Hq]].
      + rewrite lookup_insert_ne.
        * rewrite (to_loc _ _ _ _ H h' q Hq). symmetry. apply lookup_app_l. apply lookup_lt_Some in Hq.
          rewrite (to_len _ _ _ _ H) in Hq. exact Hq.
        * intros <-. apply Hnin. apply elem_of_list_lookup. eauto.
      + destruct (h' - length paths)%nat as [|n] eqn:En; [|destruct n; discriminate Hq]. injection Hq as <-.
        rewrite lookup_insert. rewrite lookup_app_r by (rewrite <- (to_len _ _ _ _ H); exact Hl).
        rewrite <- (to_len _ _ _ _ H), En. reflexivity.
    - intros q [y Hy]. apply elem_of_app. destruct (decide (q = s :: p)) as [->|Hne]; [right; apply elem_of_list_singleton; reflexivity|].
      rewrite lookup_insert_ne in Hy by congruence. left. apply (to_all _ _ _ _ H). eauto.
    - intros h' s' c. cbn [with_child kids]. rewrite (to_nodes _ _ _ _ H), <- (to_len _ _ _ _ H).
      destruct (decide ((h', s') = (h, s))) as [E|Hne].
      + injection E as -> ->. rewrite lookup_insert. split.
        * intros [= <-]. exists p. split; [rewrite lookup_app_l by (apply lookup_lt_Some in Hp; exact Hp); exact Hp|].
          apply list_lookup_middle. reflexivity.
        * intros (q & Hq & Hc). rewrite lookup_app_l in Hq by (apply lookup_lt_Some in Hp; exact Hp).
          assert (q = p) by congruence. subst q. apply lookup_app_Some in Hc as [Hc|[Hl Hc]].
          -- destruct Hnin. apply elem_of_list_lookup. eauto.
          -- destruct (c - length paths)%nat as [|n] eqn:En; [f_equal; lia|destruct n; discriminate Hc].
      + rewrite lookup_insert_ne by congruence. rewrite (to_kids _ _ _ _ H). split.
        * intros (q & Hq & Hc). exists q. split; (rewrite lookup_app_l; [assumption|eapply lookup_lt_Some; eassumption]).
        * intros (q & Hq & Hc). apply lookup_app_Some in Hq as [Hq|[Hl Hq]].
          -- exists q. split; [exact Hq|]. apply lookup_app_Some in Hc as [Hc|[Hl Hc]]; [exact Hc|].
             destruct (c - length paths)%nat as [|n]; [|destruct n; discriminate Hc]. injection Hc as <- <-.
             destruct Hne. f_equal. apply (proj1 (NoDup_alt paths) (to_nd _ _ _ _ H) _ _ _ Hq Hp).
          -- (* the new node has no children *)
             exfalso. destruct (h' - length paths)%nat as [|n]; [|destruct n; discriminate Hq]. injection Hq as <-.
             apply lookup_app_Some in Hc as [Hc|[Hl' Hc]].
             ++ apply Hnin. assert (Hs : is_Some (loc !! (s' :: s :: p))).
                { rewrite (to_loc _ _ _ _ H c _ Hc). apply lookup_lt_is_Some_2. rewrite <- (to_len _ _ _ _ H).
                  eapply lookup_lt_Some; eassumption. }
                destruct (d_pref _ HD t loc s' (s :: p) Hr Hs) as [z Hz]. congruence.
             ++ destruct (c - length paths)%nat as [|n]; [|destruct n; discriminate Hc]. injection Hc as _ Hc.
                apply (f_equal length) in Hc. simpl in Hc. lia.
  Qed.
  Lemma root_tree r : tree_of {[ [] := r ]} [ [] ] [r] root_only.
  Proof.
    split; try reflexivity.
    - apply NoDup_singleton.
    - intros [|[|h]] p Hp; try discriminate Hp. injection Hp as <-. apply lookup_singleton.
    - intros p [x Hx]. apply lookup_singleton_Some in Hx as [<- _]. apply elem_of_list_singleton. reflexivity.
    - intros h s c. cbn [root_only kids]. rewrite lookup_empty. split; [discriminate|]. intros (p & _ & Hc).
      destruct c as [|[|c]]; discriminate Hc.
  Qed.
  Lemma wpx_at {A} L (r : outcome A) Q x : wpx L r Q -> r = Ret x -> Q x.
  Proof. intros H E. rewrite E in H. exact H. Qed.
  Lemma wpx_returns {A} L (r : outcome A) Q : wpx L r Q -> returns L r Q.
  Proof. destruct r as [x| | | |]; simpl; intros H; try contradiction; [left; eauto|right; auto]. Qed.

  (** One call of add_child on node [h]. *)
  Lemma add_step t loc paths ids T h v s r x t' : rep t loc -> tree_of loc paths ids T -> ids !! h = Some v ->
    may_add TO mf sb forbid t h s -> t_add_child TO t v s = Ret (r, x, t') ->
    (r = true /\ kids T !! (h, s) = None /\ (t_kind TO = Fkhash -> x = t_size TO t) /\
      exists loc' paths', rep t' loc' /\ tree_of loc' paths' (ids ++ [x]) (with_child T h s)) \/
    (r = false /\ rep t' loc).
  Proof.
    intros Hr H Hh (Hs & Hf & Hg) E. destruct (to_path _ _ _ _ _ _ H Hh) as (p & Hp & Lp).
    pose proof (to_forbid _ _ _ _ _ _ s H Hp Hf) as Hf'.
    destruct (loc !! (s :: p)) as [y|] eqn:Ey.
    - right. pose proof (wpx_at _ _ _ _ (d_again _ HD t loc p v s y Hr Lp Hs Hf' Hg Ey) E) as (-> & _ & Hr' & _). auto.
    - assert (Hcase : (t_kind TO = Bonsai /\ t_size TO t = limit t) \/ (t_kind TO = Bonsai -> t_size TO t < limit t)).
      { pose proof (d_load _ HD t loc Hr). destruct (N.eq_dec (t_size TO t) (limit t)); [|right; intros; lia].
        destruct (t_kind TO); [left; auto|right; discriminate]. }
      destruct Hcase as [[Hk Hfull]|Hlt].
      + right. rewrite (d_full _ HD t loc p v s Hr Lp Hs Hk Ey Hfull) in E. injection E as <- <- <-. auto.
      + left. pose proof (wpx_at _ _ _ _ (d_new _ HD t loc p v s Hr Lp Hs Hf' Hg Ey Hlt) E) as (-> & Hx & Hid & Hbt & Hr').
        split; [reflexivity|]. split; [apply (to_kid_none _ _ _ _ _ _ _ H Hp), Ey|]. split; [exact Hid|].
        eexists _, _. split; [exact Hr'|]. apply (to_new t loc paths ids T h p s x Hr H Hp Ey).
  Qed.
  (** One expansion. *)
  Lemma expand_tree (loc loc' : locmap) (mp : gmap N N) t t' paths ids T :
    rep t loc -> rep t' loc' -> tree_of loc paths ids T -> dom loc' = dom loc ->
    (forall p v, loc !! p = Some v -> mp !! v = loc' !! p) ->
    exists ids', Forall2 (fun v v' => mp !! v = Some v') ids ids' /\ tree_of loc' paths ids' T.
  Proof.
    intros Hr Hr' H Hd Hmp.
    assert (Hex : forall ps, (forall p, p ∈ ps -> p ∈ paths) -> exists vs', length vs' = length ps /\
       forall h p, ps !! h = Some p -> loc' !! p = vs' !! h).
    { induction ps as [|p ps IH]; intros Hin.
      - exists []. split; [reflexivity|]. intros h p Hp. discriminate Hp.
      - destruct IH as (vs' & Hl & Hv); [intros q Hq; apply Hin; constructor; exact Hq|].
        assert (Hp : is_Some (loc' !! p)).
        { apply elem_of_dom. rewrite Hd. apply elem_of_dom.
          assert (p ∈ paths) as Hpp by (apply Hin; constructor). apply elem_of_list_lookup in Hpp as [h Hh].
          rewrite (to_loc _ _ _ _ H h p Hh). apply lookup_lt_is_Some_2. rewrite <- (to_len _ _ _ _ H).
          apply (lookup_lt_Some _ _ _ Hh). }
        destruct Hp as [x Hx]. exists (x :: vs'). split; [simpl; congruence|].
        intros [|h] q Hq; [injection Hq as <-; exact Hx|apply (Hv h q Hq)]. }
    destruct (Hex paths) as (ids' & Hl & Hv); [auto|]. exists ids'.
    assert (Hlen : length ids = length ids') by (rewrite Hl; symmetry; apply H).
    split.
    - apply Forall2_same_length_lookup. split; [exact Hlen|]. intros h v v' Hh Hh'.
      destruct (to_path _ _ _ _ _ _ H Hh) as (p & Hp & Lp). rewrite (Hmp p v Lp), (Hv h p Hp). exact Hh'.
    - split.
      + symmetry. exact Hl.
      + rewrite (to_nodes _ _ _ _ H). exact Hlen.
      + apply H.
      + apply H.
      + exact Hv.
      + intros p Hp. apply (to_all _ _ _ _ H). apply elem_of_dom. rewrite <- Hd. apply elem_of_dom, Hp.
      + apply H.
  Qed.

  Lemma built_rep t ids T : built TO mf sb forbid start t ids T ->
    exists loc paths, rep t loc /\ tree_of loc paths ids T /\
      (t_kind TO = Fkhash -> forall h v, ids !! h = Some v -> v = N.of_nat h).
  Proof.
    intros HB. induction HB as [t0 t r E0 E1 E2|t ids T h v s x t' HB IH Hh Hm E|t ids T h v s x t' HB IH Hh Hm E|t ids T nm t' ids' HB IH Hk Hsb Hg E Hids].
    - destruct (d_start _ HD) as (t0' & t1 & r' & F0 & F1 & F2 & Hr). rewrite E0 in F0. injection F0 as <-.
      rewrite E1 in F1. injection F1 as <-. rewrite E2 in F2. injection F2 as <-.
      exists {[ [] := r ]}, [ [] ]. split; [exact Hr|]. split; [apply root_tree|].
      intros Hk [|[|h]] v Hv; try discriminate Hv. injection Hv as <-.
      rewrite (d_fkroot _ HD t {[ [] := r ]} r Hk Hr) by apply lookup_singleton. reflexivity.
    - destruct IH as (loc & paths & Hr & H & Hfk).
      destruct (add_step _ _ _ _ _ _ _ _ _ _ _ Hr H Hh Hm E) as [(_ & _ & Hid & loc' & paths' & Hr' & H')|[? _]]; [|discriminate].
      exists loc', paths'. split; [exact Hr'|]. split; [exact H'|]. intros Hk h' v' Hv.
      apply lookup_app_Some in Hv as [Hv|[Hl Hv]]; [apply (Hfk Hk h' v' Hv)|].
      destruct (h' - length ids)%nat as [|n] eqn:En; [|destruct n; discriminate Hv]. injection Hv as <-.
      rewrite (Hid Hk), (d_size _ HD t loc Hr), (to_size _ _ _ _ H). f_equal. lia.
    - destruct IH as (loc & paths & Hr & H & Hfk).
      destruct (add_step _ _ _ _ _ _ _ _ _ _ _ Hr H Hh Hm E) as [(? & _)|[_ Hr']]; [discriminate|].
      exists loc, paths. auto.
    - destruct IH as (loc & paths & Hr & H & Hfk).
      pose proof (wpx_at _ _ _ _ (d_expand _ HD t loc Hr Hk Hsb Hg) E) as (loc' & mp & Hr' & _ & Hd & _ & Hget & Hmp & _).
      destruct (expand_tree loc loc' mp t t' paths ids T Hr Hr' H Hd Hmp) as (ids2 & H2 & H').
      assert (ids' = ids2) as ->.
      { apply list_eq_same_length with (n := length ids).
        - symmetry. eapply Forall2_length; eassumption.
        - symmetry. eapply Forall2_length; eassumption.
        - intros i x y Hi Hx Hy. destruct (Forall2_lookup_r _ _ _ _ _ Hids Hx) as (v & Hv & Ev).
          destruct (Forall2_lookup_l _ _ _ _ _ H2 Hv) as (y' & Hy' & Ey). assert (y' = y) by congruence. subst y'.
          destruct (to_path _ _ _ _ _ _ H Hv) as (p & _ & Lp).
          rewrite (Hget v (d_bound _ HD t loc p v Hr Lp)), Ey in Ev. injection Ev as ->. reflexivity. }
      exists loc', paths. split; [exact Hr'|]. split; [exact H'|]. intros Hk'. congruence.
  Qed.

  Theorem built_dynamic t ids T : built TO mf sb forbid start t ids T -> dynamic_trie TO mf sb forbid sat t ids T.
  Proof.
    intros HB. destruct (built_rep t ids T HB) as (loc & paths & Hr & H & _).
    assert (Hfind : forall t loc paths ids T h v s, rep t loc -> tree_of loc paths ids T -> ids !! h = Some v -> s < 2 ^ sb ->
      t_find_child TO t v s = Ret (shown ids (kids T !! (h, s)))).
    { clear -HD. intros t loc paths ids T h v s Hr H Hh Hs. destruct (to_path _ _ _ _ _ _ H Hh) as (p & Hp & Lp).
      rewrite (d_find _ HD t loc p v s Hr Lp Hs), (to_kid _ _ _ _ _ _ s H Hp). reflexivity. }
    assert (Hnil : forall t loc paths ids T, rep t loc -> tree_of loc paths ids T -> ~ In nil_id ids).
    { clear -HD. intros t loc paths ids T Hr H Hin. apply elem_of_list_In, elem_of_list_lookup in Hin as [h Hh].
      destruct (to_path _ _ _ _ _ _ H Hh) as (p & _ & Lp). pose proof (d_bound _ HD t loc p _ Hr Lp) as Hb.
      pose proof (d_bits _ HD t loc Hr) as [_ Hbb]. pose proof (pow2_le _ _ Hbb) as Hc.
      assert (2 ^ 56 <= nil_id) by (vm_compute; discriminate). lia. }
    split.
    - split; [apply (to_nodup t loc paths ids T Hr H)|]. split; [symmetry; apply H|]. apply (Hnil _ _ _ _ _ Hr H).
    - rewrite (d_size _ HD t loc Hr), (to_size _ _ _ _ H), (to_nodes _ _ _ _ H). reflexivity.
    - apply (d_load _ HD t loc Hr).
    - destruct (d_root _ HD t loc Hr) as (r & E & Hl). exists r. split; [exact E|].
      rewrite <- (to_loc _ _ _ _ H _ _ (to_root _ _ _ _ H)). exact Hl.
    - intros h v s Hh Hs. apply (Hfind _ _ _ _ _ _ _ _ Hr H Hh Hs).
    - intros h s c Hc. apply (to_kids _ _ _ _ H) in Hc as (p & Hp & Hc). rewrite (to_nodes _ _ _ _ H), <- (to_len _ _ _ _ H).
      split; eapply lookup_lt_Some; eassumption.
    - intros h v s c Hh (Hs & Hf & Hg) Hc. destruct (to_path _ _ _ _ _ _ H Hh) as (p & Hp & Lp).
      pose proof (to_forbid _ _ _ _ _ _ s H Hp Hf) as Hf'.
      destruct (loc !! (s :: p)) as [y|] eqn:Ey.
      2:{ apply (to_kid_none _ _ _ _ _ _ _ H Hp) in Ey. congruence. }
      apply wpx_returns. eapply wpx_mono; [apply (d_again _ HD t loc p v s y Hr Lp Hs Hf' Hg Ey)|].
      intros [[r x] t'] (-> & -> & Hr' & Ht'). split; [reflexivity|]. split; [|exact Ht'].
      rewrite (to_kid _ _ _ _ _ _ _ H Hp), Hc in Ey. exact Ey.
    - intros h v s Hh (Hs & Hf & Hg) Hc Hroom. destruct (to_path _ _ _ _ _ _ H Hh) as (p & Hp & Lp).
      pose proof (to_forbid _ _ _ _ _ _ s H Hp Hf) as Hf'.
      apply (to_kid_none _ _ _ _ _ _ _ H Hp) in Hc as Hn.
      apply wpx_returns. eapply wpx_mono; [apply (d_new _ HD t loc p v s Hr Lp Hs Hf' Hg Hn Hroom)|].
      intros [[r x] t'] (-> & Hx & Hid & Hbt & Hr').
      pose proof (to_new t loc paths ids T h p s x Hr H Hp Hn) as H'.
      split; [reflexivity|]. split; [apply (to_in _ _ _ _ _ H Hx)|].
      pose proof (Hnil _ _ _ _ _ Hr' H') as Hnl.
      split; [intros ->; apply Hnl; apply in_or_app; right; left; reflexivity|].
      split. { rewrite (d_size _ HD t' _ Hr'), (d_size _ HD t _ Hr), map_size_insert_None by exact Hn. lia. }
      assert (Hin : forall h' v', ids !! h' = Some v' -> (ids ++ [x]) !! h' = Some v').
      { intros h' v' Hv. rewrite lookup_app_l; [exact Hv|eapply lookup_lt_Some; exact Hv]. }
      split.
      { rewrite (Hfind _ _ _ _ _ _ _ s Hr' H' (Hin _ _ Hh) Hs). cbn [with_child kids]. rewrite lookup_insert.
        unfold shown. cbn. rewrite (to_nodes _ _ _ _ H), list_lookup_middle by reflexivity. reflexivity. }
      split.
      + intros h' v' s' Hv' Hs' Hne. rewrite (Hfind _ _ _ _ _ _ _ s' Hr' H' (Hin _ _ Hv') Hs'), (Hfind _ _ _ _ _ _ _ s' Hr H Hv' Hs').
        cbn [with_child kids]. rewrite lookup_insert_ne by congruence. unfold shown. f_equal.
        destruct (kids T !! (h', s')) as [c|] eqn:Ec; [|reflexivity]. cbn.
        apply (to_kids _ _ _ _ H) in Ec as (q & _ & Hq). rewrite lookup_app_l; [reflexivity|].
        rewrite <- (to_len _ _ _ _ H). eapply lookup_lt_Some; exact Hq.
      + intros s' Hs'. assert (Hlast : (ids ++ [x]) !! length ids = Some x) by (apply list_lookup_middle; reflexivity).
        rewrite (Hfind _ _ _ _ _ _ _ s' Hr' H' Hlast Hs'). cbn [with_child kids].
        destruct (<[(h, s):=nodes T]> (kids T) !! (length ids, s')) as [c|] eqn:Ec; [|reflexivity]. exfalso.
        apply lookup_insert_Some in Ec as [[Ec _]|[_ Ec]].
        * injection Ec as -> _. apply lookup_lt_Some in Hh. lia.
        * apply (to_kids _ _ _ _ H) in Ec as (q & Hq & _). apply lookup_lt_Some in Hq. rewrite (to_len _ _ _ _ H) in Hq. lia.
  Qed.

  (** ** get_parent_and_symb *)
  Definition gp_spec (gp : tT TO -> N -> outcome (N * N)) : Prop := forall t loc i, rep t loc -> i < 2 ^ bits t ->
    (exists s p v, s < 2 ^ sb /\ loc !! p = Some v /\ loc !! (s :: p) = Some i /\ gp t i = Ret (v, s)) \/
    ((forall s p, loc !! (s :: p) <> Some i) /\ gp t i = Ret (nil_id, 0)).
  Lemma built_parent gp t ids T i : gp_spec gp -> built TO mf sb forbid start t ids T -> i < 2 ^ bits t ->
    (forall v s, In v ids -> s < 2 ^ sb -> (gp t i = Ret (v, s) <-> t_find_child TO t v s = Ret i)) /\
    (ids !! 0%nat = Some i -> gp t i = Ret (nil_id, 0)) /\
    (~ In i ids -> gp t i = Ret (nil_id, 0)) /\
    (In i ids -> ids !! 0%nat <> Some i -> exists v s, In v ids /\ s < 2 ^ sb /\ gp t i = Ret (v, s)).
  Proof.
    intros HG HB Hi. destruct (built_rep t ids T HB) as (loc & paths & Hr & H & _).
    pose proof (built_dynamic t ids T HB) as HDy. destruct (dy_ids _ _ _ _ _ _ _ _ HDy) as (_ & _ & Hnil).
    assert (Hin : forall p v, loc !! p = Some v -> In v ids).
    { intros p v Hp. assert (p ∈ paths) as Hpp by (apply (to_all _ _ _ _ H); eauto).
      apply elem_of_list_lookup in Hpp as [h Hh]. rewrite (to_loc _ _ _ _ H h p Hh) in Hp.
      apply elem_of_list_In, elem_of_list_lookup. eauto. }
    assert (Hpath : forall v, In v ids -> exists p, loc !! p = Some v).
    { intros v Hv. apply elem_of_list_In, elem_of_list_lookup in Hv as [h Hh].
      destruct (to_path _ _ _ _ _ _ H Hh) as (p & _ & Hp). eauto. }
    assert (Hroot : ids !! 0%nat = loc !! []) by (symmetry; apply (to_loc _ _ _ _ H), H).
    assert (Hnili : i <> nil_id).
    { pose proof (d_bits _ HD t loc Hr) as [_ Hbb]. pose proof (pow2_le _ _ Hbb) as Hc.
      assert (2 ^ 56 <= nil_id) by (vm_compute; discriminate). lia. }
    destruct (HG t loc i Hr Hi) as [(s & p & v & Hs & Lp & Lc & E)|[Hno E]].
    - split; [|split; [|split]].
      + intros v' s' Hv' Hs'. destruct (Hpath v' Hv') as [p' Hp']. rewrite E, (d_find _ HD t loc p' v' s' Hr Hp' Hs'). split.
        * intros [= <- <-]. assert (p' = p) by (eapply (d_inj _ HD); eauto). subst p'. rewrite Lc. reflexivity.
        * intros Hf. destruct (loc !! (s' :: p')) as [y|] eqn:Ey; cbn in Hf; injection Hf as Hf.
          -- subst y. assert (Epp : s' :: p' = s :: p) by (eapply (d_inj _ HD); eauto). injection Epp as -> ->. congruence.
          -- congruence.
      + intros H0. rewrite Hroot in H0. assert (Epp : s :: p = []) by (eapply (d_inj _ HD); eauto). discriminate Epp.
      + intros Hn. destruct Hn. apply (Hin _ _ Lc).
      + intros _ _. exists v, s. split; [apply (Hin _ _ Lp)|]. auto.
    - split; [|split; [|split]].
      + intros v' s' Hv' Hs'. destruct (Hpath v' Hv') as [p' Hp']. rewrite E, (d_find _ HD t loc p' v' s' Hr Hp' Hs'). split.
        * intros [= <- <-]. destruct (Hnil Hv').
        * intros Hf. destruct (loc !! (s' :: p')) as [y|] eqn:Ey; cbn in Hf; injection Hf as Hf; [|congruence].
          subst y. destruct (Hno s' p' Ey).
      + auto.
      + auto.
      + intros Hv H0. exfalso. destruct (Hpath i Hv) as [[|s p] Hp]; [congruence|]. apply (Hno s p Hp).
  Qed.

  (** ** expand *)
  Lemma built_expands t ids T : built TO mf sb forbid start t ids T -> t_kind TO = Bonsai -> 1 <= sb -> can_grow TO sb t ->
    returns (sat (bits t + 1) (t_size TO t)) (t_expand TO t) (fun '(nm, t') =>
      bits t' = bits t + 1 /\ t_size TO t' = t_size TO t /\ nm_size nm = 2 ^ bits t /\
      (forall i, i < 2 ^ bits t -> ~ In i ids -> nm_get nm i = Ret UINT64_MAX) /\
      exists ids', Forall2 (fun v v' => nm_get nm v = Ret v') ids ids' /\ built TO mf sb forbid start t' ids' T).
  Proof.
    intros HB Hk Hsb Hg. destruct (built_rep t ids T HB) as (loc & paths & Hr & H & _).
    pose proof (d_expand _ HD t loc Hr Hk Hsb Hg) as Hx. destruct (t_expand TO t) as [[nm t']| | | |] eqn:E; try contradiction.
    2:{ right. auto. }
    left. exists (nm, t'). split; [reflexivity|]. destruct Hx as (loc' & mp & Hr' & Hb & Hd & Hn & Hget & Hmp & Hmp2).
    split; [exact Hb|].
    split. { rewrite (d_size _ HD t' _ Hr'), (d_size _ HD t _ Hr). f_equal. rewrite <- !(size_dom (D := gset (list N))), Hd. reflexivity. }
    split; [exact Hn|]. split.
    - intros i Hi Hni. rewrite (Hget i Hi). destruct (mp !! i) as [y|] eqn:Ey; [|reflexivity].
      destruct (Hmp2 i y Ey) as [p Hp]. destruct Hni. assert (p ∈ paths) as Hpp by (apply (to_all _ _ _ _ H); eauto).
      apply elem_of_list_lookup in Hpp as [h Hh]. rewrite (to_loc _ _ _ _ H h p Hh) in Hp.
      apply elem_of_list_In, elem_of_list_lookup. eauto.
    - destruct (expand_tree loc loc' mp t t' paths ids T Hr Hr' H Hd Hmp) as (ids' & H2 & H').
      assert (HF : Forall2 (fun v v' => nm_get nm v = Ret v') ids ids').
      { apply Forall2_same_length_lookup. split; [eapply Forall2_length; exact H2|]. intros h v v' Hv Hv'.
        destruct (to_path _ _ _ _ _ _ H Hv) as (p & _ & Lp). rewrite (Hget v (d_bound _ HD t loc p v Hr Lp)).
        rewrite (Forall2_lookup_lr _ _ _ _ _ _ H2 Hv Hv'). reflexivity. }
      exists ids'. split; [exact HF|]. eapply built_expand; eassumption.
  Qed.
  (** ** A full Bonsai trie *)
  Lemma built_full t ids T h v s : built TO mf sb forbid start t ids T -> t_kind TO = Bonsai ->
    (t_needs_to_expand TO t = true <-> t_size TO t = limit t) /\
    (ids !! h = Some v -> s < 2 ^ sb -> kids T !! (h, s) = None -> t_size TO t = limit t ->
     t_add_child TO t v s = Ret (false, v, t)).
  Proof.
    intros HB Hk. destruct (built_rep t ids T HB) as (loc & paths & Hr & H & _). split.
    - rewrite (d_needs _ HD t loc Hr Hk). pose proof (d_load _ HD t loc Hr). rewrite N.leb_le. lia.
    - intros Hh Hs Hc Hfull. destruct (to_path _ _ _ _ _ _ H Hh) as (p & Hp & Lp).
      apply (to_kid_none _ _ _ _ _ _ _ H Hp) in Hc. apply (d_full _ HD t loc p v s Hr Lp Hs Hk Hc Hfull).
  Qed.
  Lemma built_ids t ids T h v : built TO mf sb forbid start t ids T -> t_kind TO = Fkhash -> ids !! h = Some v -> v = N.of_nat h.
  Proof. intros HB Hk. destruct (built_rep t ids T HB) as (loc & paths & Hr & H & Hf). apply (Hf Hk). Qed.
  (** A chain of [n] nodes can be built up to the load limit. *)
  Lemma built_chain s0 n : s0 < 2 ^ sb -> (forbid = true -> s0 <> 0) -> (forall b n, n <= max_size_of (2 ^ b) mf -> b <= 56 -> ~ sat b n) ->
    N.of_nat n < max_size_of (2 ^ b0) mf ->
    exists t ids T, built TO mf sb forbid start t ids T /\ bits t = b0 /\ nodes T = S n /\ kids T !! (n, s0) = None.
  Proof.
    intros Hs0 Hf Hsat. induction n as [|n IH]; intros Hn.
    - destruct (d_start _ HD) as (t0 & t & r & E0 & E1 & E2 & _). exists t, [r], root_only.
      split; [eapply built_root; eassumption|]. split; [apply (d_start_bits _ HD t0 t E0 E1)|]. split; reflexivity.
    - destruct IH as (t & ids & T & HB & Eb & En & Ek); [lia|].
      pose proof (built_dynamic t ids T HB) as HDy. destruct (dy_ids _ _ _ _ _ _ _ _ HDy) as (_ & Hlen & _).
      pose proof (dy_size _ _ _ _ _ _ _ _ HDy) as Hsz.
      assert (Hl : (n < length ids)%nat) by lia. destruct (lookup_lt_is_Some_2 ids n Hl) as [v Hv].
      assert (Hroom : t_size TO t < limit t) by (rewrite Eb, Hsz, En; lia).
      assert (Hm : may_add TO mf sb forbid t n s0).
      { split; [exact Hs0|]. split; [intros Hb E; injection E as _ E; apply (Hf Hb E)|]. intros _. left. exact Hroom. }
      destruct (built_rep t ids T HB) as (loc & paths & Hr & H & _).
      destruct (to_path _ _ _ _ _ _ H Hv) as (p & Hp & Lp).
      pose proof (to_forbid _ _ _ _ _ _ s0 H Hp (proj1 (proj2 Hm))) as Hf'.
      apply (to_kid_none _ _ _ _ _ _ _ H Hp) in Ek as Hnn.
      pose proof (d_new _ HD t loc p v s0 Hr Lp Hs0 Hf' (fun _ => or_introl Hroom) Hnn (fun _ => Hroom)) as Hw.
      destruct (t_add_child TO t v s0) as [[[r x] t']| | | |] eqn:E; try contradiction.
      2:{ exfalso. apply (Hsat (bits t) (t_size TO t)); [lia| |exact Hw]. apply (d_bits _ HD t loc Hr). }
      destruct Hw as (-> & _ & _ & Hbt & _).
      exists t', (ids ++ [x]), (with_child T n s0). split; [eapply built_child; eassumption|].
      split; [rewrite (Hbt Hroom); exact Eb|]. cbn [with_child nodes kids]. split; [lia|].
      rewrite lookup_insert_ne by (intros E2; injection E2; lia).
      destruct (kids T !! (S n, s0)) as [c|] eqn:Ec; [|reflexivity].
      destruct (dy_kid _ _ _ _ _ _ _ _ HDy _ _ _ Ec) as [Hc _]. lia.
  Qed.
  Lemma built_starts : exists t0 t r, start = Ret t0 /\ t_add_root TO t0 = Ret t /\ t_get_root TO t = Ret r /\
    built TO mf sb forbid start t [r] root_only.
  Proof. destruct (d_start _ HD) as (t0 & t & r & E0 & E1 & E2 & _). exists t0, t, r. split; [exact E0|]. split; [exact E1|]. split; [exact E2|]. eapply built_root; eassumption. Qed.
End contract.
