(** The re-insertion loop of Bonsai expansion computes an exact renaming. *)
From Verif.Proofs Require Export TrieRepP.
From Verif.Model Require Export BonsaiRemap.
Local Open Scope N_scope.

(** In a prefix-closed map, a path is shorter than the number of entries. *)
Fixpoint tails (q : list N) : gset (list N) :=
  match q with [] => {[ [] ]} | s :: q' => {[ s :: q' ]} ∪ tails q' end.
Lemma tails_length q x : x ∈ tails q -> (length x <= length q)%nat.
Proof.
  induction q as [|s q IH]; simpl; [set_solver|].
  rewrite elem_of_union, elem_of_singleton. intros [->|Hx]; [simpl; lia|]. apply IH in Hx. lia.
Qed.
Lemma tails_size q : size (tails q) = S (length q).
Proof.
  induction q as [|s q IH]; cbn [tails length]; [apply size_singleton|].
  rewrite size_union; [rewrite size_singleton, IH; lia|].
  apply disjoint_singleton_l. intros Hx. apply tails_length in Hx. simpl in Hx. lia.
Qed.
Lemma path_length_lt (loc : gmap (list N) N) q x :
  (forall s p y, loc !! (s :: p) = Some y -> exists v, loc !! p = Some v) ->
  loc !! q = Some x -> (length q < size loc)%nat.
Proof.
  intros Hpc Hq. assert (Hs : tails q ⊆ dom loc).
  { revert x Hq. induction q as [|s q IH]; intros x Hq y; simpl.
    - rewrite elem_of_singleton. intros ->. apply elem_of_dom. eauto.
    - rewrite elem_of_union, elem_of_singleton. intros [->|Hy]; [apply elem_of_dom; eauto|].
      destruct (Hpc s q x Hq) as (v & Hv). apply (IH v Hv y Hy). }
  apply subseteq_size in Hs. rewrite tails_size, size_dom in Hs. lia.
Qed.

(** [chain loc q path p]: [path] lists (node, symbol) from below [q] down to [p]. *)
Fixpoint chain (loc : gmap (list N) N) (q : list N) (path : list (N * N)) (p : list N) : Prop :=
  match path with
  | [] => p = q
  | (x, s) :: rest => loc !! (s :: q) = Some x /\ chain loc (s :: q) rest p
  end.

Section remap.
  Context (L : Prop) (M M2 sb root start : N) (home : N -> N) (c : N -> cell) (loc : gmap (list N) N).
  Context {T MS : Type}.
  Context (is_empty : MS -> N -> outcome bool) (gp : MS -> N -> outcome (N * N))
          (getm : MS -> N -> outcome N) (setm : MS -> N -> N -> outcome MS)
          (add_child : T -> N -> N -> outcome (bool * N * T)).
  Context (MR : MS -> gmap N N -> Prop) (NR : T -> gmap (list N) N -> Prop).

  Hypothesis HM : 0 < M.
  Hypothesis HM64 : M + 64 < 2 ^ 64.
  Hypothesis Hstart : start <= M.
  Hypothesis Hrep : trep M sb root home c (fun i => i) loc.
  Hypothesis Hids : forall p v, loc !! p = Some v -> v < M.
  Hypothesis Hsize : N.of_nat (size loc) <= M.
  Hypothesis Hstart_c : forall i, start <= i -> i < M -> c i <> Skip.
  Hypothesis Hstart_f : forall i k, i < M -> c i = Full k -> start <= i.
  Hypothesis Hempty : forall ms mp i, MR ms mp -> mp !! i = None -> start <= i -> i < M ->
    is_empty ms i = Ret (is_vac (c i)).
  Hypothesis Hgp : forall ms mp i k, MR ms mp -> mp !! i = None -> i < M -> c i = Full k ->
    gp ms i = Ret (k / 2 ^ sb, k mod 2 ^ sb).
  Hypothesis Hgetm : forall ms mp i v, MR ms mp -> mp !! i = Some v -> i < M -> getm ms i = Ret v.
  Hypothesis Hsetm : forall ms mp i v, MR ms mp -> i < M -> v < M2 ->
    exists ms', setm ms i v = Ret ms' /\ MR ms' (<[i := v]> mp).
  Hypothesis Hadd : forall t loc' q nv s, NR t loc' -> loc' !! q = Some nv -> s < 2 ^ sb ->
    (is_Some (loc' !! (s :: q)) \/ (size loc' < size loc)%nat) ->
    wpx L (add_child t nv s) (fun '(_, x, t') => x < M2 /\ NR t' (<[s :: q := x]> loc') /\
       (forall y, loc' !! (s :: q) = Some y -> x = y)).

  (** State of the loop. *)
  Definition rinv (st : MS * bit_vector * T) (loc' : gmap (list N) N) (mp : gmap N N) : Prop :=
    let '(ms, done, t) := st in
    MR ms mp /\ NR t loc' /\ bv_wf done /\ bv_size done = M /\
    (forall j, j < M -> bvbit done j = true <-> is_Some (mp !! j)) /\
    (forall j y, mp !! j = Some y <-> exists p, loc !! p = Some j /\ loc' !! p = Some y) /\
    (forall p y, loc' !! p = Some y -> is_Some (loc !! p)) /\
    is_Some (loc' !! []).

  Lemma loc_pc s p y : loc !! (s :: p) = Some y -> exists v, loc !! p = Some v.
  Proof. intros E. eapply trep_parent; eauto. Qed.
  Lemma loc_inj p q x : loc !! p = Some x -> loc !! q = Some x -> p = q.
  Proof. apply (trep_loc_inj M sb root home c (fun i => i) loc Hrep). Qed.

  Lemma climb_ok st loc' mp i p0 : rinv st loc' mp -> loc !! p0 = Some i -> mp !! i = None ->
    wp (bonsai_climb (gp (fst (fst st))) (snd (fst st)) i)
      (fun '(path, anc) => exists q, loc !! q = Some anc /\ is_Some (mp !! anc) /\ chain loc q path p0).
  Proof.
    destruct st as [[ms done] t]. simpl fst; simpl snd.
    intros (HMR & HNR & Hdw & Hds & Hdone & Hmp & Hsub & Hroot) Hi Hni. unfold bonsai_climb.
    apply wp_loop with
      (I := fun '(path, node) => exists q, loc !! q = Some node /\ mp !! node = None /\ chain loc q path p0)
      (mu := fun '(path, node) =>
         match list_find (fun '(q, v) => v = node) (map_to_list loc) with
         | Some (_, (q, _)) => N.of_nat (length q) | None => 0 end).
    - exists p0. repeat split; auto.
    - destruct (list_find _ _) as [[j [q v]]|] eqn:E; [|reflexivity].
      apply list_find_Some in E as (E & _ & _). apply elem_of_list_lookup_2, elem_of_map_to_list in E.
      apply (path_length_lt loc q v loc_pc) in E. lia.
    - intros [path node] (q & Hq & Hn & Hch).
      assert (Hfind : forall v q, loc !! q = Some v ->
        match list_find (fun '(q, w) => w = v) (map_to_list loc) with
         | Some (_, (q, _)) => N.of_nat (length q) | None => 0 end = N.of_nat (length q)).
      { intros v r Hr. destruct (list_find _ _) as [[j [q' v']]|] eqn:E.
        - apply list_find_Some in E as (E & Ev & _). apply elem_of_list_lookup_2, elem_of_map_to_list in E.
          subst v'. rewrite (loc_inj q' r v); auto.
        - exfalso. apply list_find_None in E. rewrite Forall_forall in E.
          apply elem_of_map_to_list in Hr. apply (E (r, v) Hr). reflexivity. }
      pose proof (Hfind node q Hq) as Hmu.
      destruct q as [|s q].
      { exfalso. destruct Hroot as [y Hy]. assert (Hm : mp !! node = Some y) by (apply Hmp; eauto). congruence. }
      destruct (tr_cell _ _ _ _ _ _ _ Hrep _ _ _ Hq) as (Hs & v & j & Hv & Hj & Hc & Hx). subst j.
      rewrite (Hgp ms mp node _ HMR Hn Hj Hc), bind_ret. rewrite ekey_div, ekey_mod by exact Hs.
      pose proof (Hids q v Hv) as HvM.
      rewrite assert_true. 2:{ apply negb_true_iff, N.eqb_neq. unfold nil_id, UINT64_MAX.
        change (2 ^ 64) with 18446744073709551616 in HM64. lia. }
      rewrite bind_ret. rewrite bv_get_ok by (rewrite ?Hds; assumption). rewrite bind_ret.
      destruct (bvbit done v) eqn:Ed.
      + apply wp_ret. exists q. split; [exact Hv|]. split; [apply Hdone; assumption|].
        simpl. split; [exact Hq|exact Hch].
      + apply wp_ret. split.
        * exists q. split; [exact Hv|]. split; [|simpl; split; [exact Hq|exact Hch]].
          destruct (mp !! v) as [y|] eqn:E; [|reflexivity].
          assert (Ht : bvbit done v = true) by (apply Hdone; eauto). congruence.
        * rewrite (Hfind v q Hv), Hmu. simpl length. lia.
  Qed.

  Lemma replay_ok path : forall q p0 nv ms done t loc' mp,
    rinv (ms, done, t) loc' mp -> loc' !! q = Some nv -> chain loc q path p0 ->
    wpx L (bonsai_replay add_child setm path nv ms done t)
      (fun st => exists loc2 mp2, rinv st loc2 mp2 /\ is_Some (loc2 !! p0) /\
         (forall j, is_Some (mp !! j) -> is_Some (mp2 !! j))).
  Proof.
    induction path as [|[old s] path IH]; intros q p0 nv ms done t loc' mp Hinv Hnv Hch; simpl.
    - simpl in Hch. subst p0. exists loc', mp. split; [exact Hinv|]. split; [eauto|auto].
    - simpl in Hch. destruct Hch as [Hold Hch].
      destruct Hinv as (HMR & HNR & Hdw & Hds & Hdone & Hmp & Hsub & Hroot).
      destruct (tr_cell _ _ _ _ _ _ _ Hrep _ _ _ Hold) as (Hs & v & j & Hv & Hj & Hc & Hx). subst j.
      apply wpx_bind. eapply wpx_mono.
      { apply (Hadd t loc' q nv s HNR Hnv Hs).
        destruct (loc' !! (s :: q)) as [y|] eqn:E; [left; eauto|right].
        assert (Hd : dom loc' ⊂ dom loc).
        { split.
          - intros x Hx. apply elem_of_dom in Hx as [y Hy]. apply elem_of_dom. eapply Hsub; eauto.
          - intros Hd. apply (not_elem_of_dom_2 loc' (s :: q) E), Hd, elem_of_dom. eauto. }
        apply subset_size in Hd. rewrite !size_dom in Hd. exact Hd. }
      intros [[bb x] t'] (Hx & HNR' & Hxy). simpl.
      destruct (Hsetm ms mp old x HMR Hj Hx) as (ms' & E & HMR'). rewrite E, bind_ret.
      destruct (bv_set_ok done old true) as (done' & E' & Hdw' & Hds' & Hbit); [assumption|rewrite Hds; assumption|].
      rewrite E', bind_ret.
      eapply wpx_mono.
      { apply (IH (s :: q) p0 x ms' done' t' (<[s :: q := x]> loc') (<[old := x]> mp)).
        - split; [exact HMR'|]. split; [exact HNR'|]. split; [exact Hdw'|]. split; [congruence|].
          split; [|split; [|split]].
          + intros j Hjj. rewrite Hbit. destruct (N.eqb_spec j old) as [->|Hne].
            * rewrite lookup_insert. split; eauto.
            * rewrite lookup_insert_ne by congruence. apply Hdone, Hjj.
          + intros j y. destruct (N.eq_dec j old) as [->|Hne].
            * rewrite lookup_insert. split.
              -- intros [= <-]. exists (s :: q). split; [exact Hold|apply lookup_insert].
              -- intros (p & Hp & Hy). rewrite (loc_inj p (s :: q) old Hp Hold), lookup_insert in Hy. exact Hy.
            * rewrite lookup_insert_ne by congruence. rewrite Hmp.
              split; intros (p & Hp & Hy); exists p; (split; [exact Hp|]).
              -- rewrite lookup_insert_ne; [exact Hy|]. intros <-. congruence.
              -- rewrite lookup_insert_ne in Hy; [exact Hy|]. intros <-. congruence.
          + intros p y. destruct (decide (p = s :: q)) as [->|Hne].
            * intros _. eauto.
            * rewrite lookup_insert_ne by congruence. apply Hsub.
          + rewrite lookup_insert_ne by discriminate. exact Hroot.
        - apply lookup_insert.
        - exact Hch. }
      intros st (loc2 & mp2 & H1 & H2 & H3). exists loc2, mp2. split; [exact H1|]. split; [exact H2|].
      intros j Hjj. apply H3. destruct (N.eq_dec j old) as [->|Hne].
      + rewrite lookup_insert. eauto.
      + rewrite lookup_insert_ne by congruence. exact Hjj.
  Qed.

  Lemma remap_ok st loc0 mp0 : rinv st loc0 mp0 ->
    wpx L (bonsai_remap start M is_empty gp getm setm add_child st)
      (fun st => exists loc' mp, rinv st loc' mp /\ dom loc' = dom loc /\
         (forall p v, loc !! p = Some v -> mp !! v = loc' !! p)).
  Proof.
    intros Hinv0. unfold bonsai_remap.
    apply wpx_for_range with (I := fun i st => exists loc' mp, rinv st loc' mp /\
       forall j k, j < i -> j < M -> c j = Full k -> is_Some (mp !! j)).
    - exact Hstart.
    - lia.
    - exists loc0, mp0. split; [exact Hinv0|]. intros j k Hj HjM Hc. apply Hstart_f in Hc; [lia|exact HjM].
    - intros i [[ms done] t] Hi (loc' & mp & Hinv & Hdn).
      pose proof Hinv as (HMR & HNR & Hdw & Hds & Hdone & Hmp & Hsub & Hroot).
      rewrite bv_get_ok by (rewrite ?Hds; lia || assumption). rewrite bind_ret.
      assert (Hstep : is_Some (mp !! i) \/ c i = Vac -> forall j k, j < i + 1 -> j < M -> c j = Full k -> is_Some (mp !! j)).
      { intros Hor j k Hj HjM Hc. destruct (N.eq_dec j i) as [->|Hne].
        - destruct Hor; [assumption|congruence].
        - apply (Hdn j k); [lia|exact HjM|exact Hc]. }
      destruct (bvbit done i) eqn:Ed.
      + apply wpx_ret. exists loc', mp. split; [exact Hinv|]. apply Hstep. left. apply Hdone; [lia|exact Ed].
      + assert (Hni : mp !! i = None).
        { destruct (mp !! i) as [y|] eqn:E; [|reflexivity].
          assert (Ht : bvbit done i = true) by (apply Hdone; [lia|eauto]). congruence. }
        rewrite (Hempty ms mp i HMR Hni) by lia. rewrite bind_ret.
        destruct (c i) as [| |k] eqn:Ec; simpl is_vac; cbv iota.
        * exfalso. apply (Hstart_c i); [lia|lia|exact Ec].
        * apply wpx_ret. exists loc', mp. split; [exact Hinv|]. apply Hstep. auto.
        * destruct (tr_path _ _ _ _ _ _ _ Hrep i k) as (p & Hp1 & Hp2); [lia|exact Ec|].
          apply wpx_bind. eapply wpx_mono.
          { apply wp_wpx. apply (climb_ok (ms, done, t) loc' mp i _ Hinv Hp2 Hni). }
          intros [path anc] (q & Hq & [nv Hnv] & Hch). simpl.
          rewrite (Hgetm ms mp anc nv HMR Hnv) by (eapply Hids; eauto). rewrite bind_ret.
          eapply wpx_mono.
          { apply (replay_ok path q (k mod 2 ^ sb :: p) nv ms done t loc' mp Hinv); [|exact Hch].
            apply Hmp in Hnv as (q' & Hq' & Hy). rewrite (loc_inj q q' anc Hq Hq'). exact Hy. }
          intros st2 (loc2 & mp2 & Hinv2 & [y Hp0] & Hmono). exists loc2, mp2. split; [exact Hinv2|].
          intros j k' Hj HjM Hc. destruct (N.eq_dec j i) as [->|Hne].
          -- destruct st2 as [[ms2 done2] t2]. destruct Hinv2 as (_ & _ & _ & _ & _ & Hmp2 & _).
             exists y. apply Hmp2. eauto.
          -- apply Hmono. apply (Hdn j k'); [lia|exact HjM|exact Hc].
    - intros [[ms done] t] (loc' & mp & Hinv & Hdn). exists loc', mp. split; [exact Hinv|].
      destruct Hinv as (HMR & HNR & Hdw & Hds & Hdone & Hmp & Hsub & Hroot).
      assert (Hall : forall p v, loc !! p = Some v -> exists y, mp !! v = Some y /\ loc' !! p = Some y).
      { intros p v Hp.
        assert (Hy : is_Some (mp !! v)).
        { destruct p as [|s p].
          - destruct Hroot as [y Hy]. exists y. apply Hmp. eauto.
          - destruct (tr_cell _ _ _ _ _ _ _ Hrep _ _ _ Hp) as (_ & w & j & _ & Hj & Hc & Hx). subst j.
            eapply Hdn; eauto. }
        destruct Hy as [y Hy]. exists y. split; [exact Hy|]. apply Hmp in Hy as (p' & Hp' & Hy').
        rewrite (loc_inj p p' v Hp Hp'). exact Hy'. }
      split.
      + apply set_eq. intros p. rewrite !elem_of_dom. split.
        * intros [y Hy]. eapply Hsub; eauto.
        * intros [v Hv]. destruct (Hall p v Hv) as (y & _ & Hy). eauto.
      + intros p v Hp. destruct (Hall p v Hp) as (y & H1 & H2). congruence.
  Qed.
End remap.
