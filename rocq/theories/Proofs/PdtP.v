(** Path-decomposed tries: labelled nodes, the key each node spells, and descent along a key. *)
From Verif.Proofs Require Export KeyP.
Local Open Scope N_scope.

(** An edge: position in the label of the parent and branching byte.  A node is the list of edges
    from it up to the root. *)
Notation edge := (nat * N)%type.
Notation node := (list edge).
Notation dmap := (gmap node (list N * list N)).

Definition label (D : dmap) (π : node) : list N := match D !! π with Some (l, _) => l | None => [] end.
Fixpoint spell (D : dmap) (π : node) : list N :=
  match π with
  | [] => []
  | (m, c) :: π => spell D π ++ firstn m (label D π) ++ [c]
  end.
Definition keyof (D : dmap) (π : node) : list N := spell D π ++ label D π.

Record dvalid (S : gset N) (D : dmap) : Prop := {
  dv_root : forall l v, D !! [] = Some (l, v) -> okey l;
  dv_node : forall m c π l v, D !! ((m, c) :: π) = Some (l, v) ->
    (exists l' v' a d r, D !! π = Some (l', v') /\ l' = a ++ d :: r /\ length a = m /\ c <> d) /\
    c ∈ S /\ ((c = 0 /\ l = []) \/ (c <> 0 /\ okey l)) }.

Inductive reach (D : dmap) : node -> list N -> node -> Prop :=
  | reach_here π l v : D !! π = Some (l, v) -> reach D π l π
  | reach_step π l v a c d k r ρ : D !! π = Some (l, v) -> l = a ++ d :: r -> c <> d ->
      reach D ((length a, c) :: π) k ρ -> reach D π (a ++ c :: k) ρ.

Lemma reach_some D π k ρ : reach D π k ρ -> is_Some (D !! π).
Proof. intros H. destruct H; eauto. Qed.
Lemma split_unique (a a' : list N) c c' d d' k k' l l' :
  a ++ c :: k = a' ++ c' :: k' -> a ++ d :: l = a' ++ d' :: l' -> c <> d -> c' <> d' ->
  a = a' /\ c = c' /\ k = k' /\ d = d' /\ l = l'.
Proof.
  intros Ek El H H'. assert (Hl : length a = length a').
  { rewrite <- (lcp_app a c d k l H), <- (lcp_app a' c' d' k' l' H'), Ek, El. reflexivity. }
  apply app_inj_1 in Ek as [-> Ek]; [|exact Hl]. apply app_inj_1 in El as [_ El]; [|reflexivity].
  injection Ek as -> ->. injection El as -> ->. auto.
Qed.
Lemma reach_end D π l v ρ : D !! π = Some (l, v) -> reach D π l ρ -> ρ = π.
Proof.
  intros Hl H. inversion H as [? l' v' Hl'|? l' v' a c d k r ? Hl' E Hcd Hr]; subst; [reflexivity|].
  exfalso. rewrite Hl in Hl'. injection Hl' as E _. apply app_inv_head in E. congruence.
Qed.
Lemma reach_next D π l v a c d k r ρ : D !! π = Some (l, v) -> l = a ++ d :: r -> c <> d ->
  reach D π (a ++ c :: k) ρ -> reach D ((length a, c) :: π) k ρ.
Proof.
  intros Hl El Hcd H.
  remember (a ++ c :: k) as y eqn:Ey.
  destruct H as [π l' v' Hl'|π l' v' a' c' d' k' r' ρ Hl' E Hcd' Hr]; rewrite Hl in Hl'; injection Hl' as E' _.
  - exfalso. rewrite El, Ey in E'. apply app_inv_head in E'. congruence.
  - rewrite El, E in E'. destruct (split_unique a a' c c' d d' k k' r r' (eq_sym Ey) E' Hcd Hcd') as (-> & -> & -> & _). exact Hr.
Qed.

Section pdt.
  Context (S : gset N) (D : dmap).
  Hypothesis HD : dvalid S D.

  Lemma label_some π l v : D !! π = Some (l, v) -> label D π = l.
  Proof. intros H. unfold label. rewrite H. reflexivity. Qed.

  Lemma reach_spell π k ρ : is_Some (D !! π) -> reach D π k ρ -> reach D [] (spell D π ++ k) ρ.
  Proof.
    revert k. induction π as [|[m c] π IH]; intros k [[l v] Hl] Hr; [exact Hr|].
    destruct (dv_node _ _ HD m c π l v Hl) as [(l' & v' & a & d & r & Hl' & El & Hm & Hcd) _].
    simpl. rewrite (label_some _ _ _ Hl'), El, <- Hm, take_app.
    rewrite <- !app_assoc. apply IH; [eauto|]. simpl.
    eapply reach_step; try eassumption. rewrite Hm. exact Hr.
  Qed.
  Lemma reach_keyof π l v : D !! π = Some (l, v) -> reach D [] (keyof D π) π.
  Proof.
    intros H. unfold keyof. apply reach_spell; [eauto|]. rewrite (label_some _ _ _ H).
    apply (reach_here D π l v H).
  Qed.
  Lemma reach_det π k ρ ρ' : reach D π k ρ -> reach D π k ρ' -> ρ = ρ'.
  Proof.
    intros H. revert ρ'. induction H as [π l v Hl|π l v a c d k r ρ Hl El Hcd Hr IH]; intros ρ' H'.
    - symmetry. apply (reach_end D π l v ρ' Hl H').
    - apply IH. eapply reach_next; eassumption.
  Qed.
  Lemma keyof_inj π ρ e f : D !! π = Some e -> D !! ρ = Some f -> keyof D π = keyof D ρ -> π = ρ.
  Proof.
    destruct e as [l v], f as [l' v']. intros Hp Hr E.
    pose proof (reach_keyof π l v Hp) as H1. pose proof (reach_keyof ρ l' v' Hr) as H2. rewrite E in H1.
    apply (reach_det [] _ π ρ H1 H2).
  Qed.

  (** Changing values only, or adding a node. *)
  Lemma spell_ext D' π e : D !! π = Some e -> (forall ρ l v, D !! ρ = Some (l, v) -> label D' ρ = l) ->
    spell D' π = spell D π.
  Proof.
    revert e. induction π as [|[m c] π IH]; intros [l v] H Hext; [reflexivity|].
    destruct (dv_node _ _ HD m c π l v H) as [(l' & v' & a & d & r & Hl' & _) _].
    simpl. rewrite (IH (l', v') Hl' Hext), (Hext π l' v' Hl'), (label_some _ _ _ Hl'). reflexivity.
  Qed.
  Lemma keyof_ext D' π e : D !! π = Some e -> (forall ρ l v, D !! ρ = Some (l, v) -> label D' ρ = l) ->
    keyof D' π = keyof D π.
  Proof.
    intros H Hext. unfold keyof. rewrite (spell_ext D' π e H Hext). destruct e as [l v].
    rewrite (Hext π l v H), (label_some _ _ _ H). reflexivity.
  Qed.

  Lemma dvalid_write π l v w : D !! π = Some (l, v) -> dvalid S (<[π := (l, w)]> D).
  Proof.
    intros H.
    assert (Hl : forall ρ l' v', <[π := (l, w)]> D !! ρ = Some (l', v') -> exists v'', D !! ρ = Some (l', v'')).
    { intros ρ l' v' E. destruct (decide (ρ = π)) as [->|Hne].
      - rewrite lookup_insert in E. injection E as <- <-. eauto.
      - rewrite lookup_insert_ne in E by congruence. eauto. }
    assert (Hl' : forall ρ l' v', D !! ρ = Some (l', v') -> exists v'', <[π := (l, w)]> D !! ρ = Some (l', v'')).
    { intros ρ l' v' E. destruct (decide (ρ = π)) as [->|Hne].
      - rewrite lookup_insert. assert (l' = l) as -> by congruence. eauto.
      - rewrite lookup_insert_ne by congruence. eauto. }
    split.
    - intros l' v' E. destruct (Hl _ _ _ E) as [v'' E']. apply (dv_root _ _ HD l' v'' E').
    - intros m c ρ l' v' E. destruct (Hl _ _ _ E) as [v'' E'].
      destruct (dv_node _ _ HD m c ρ l' v'' E') as [(l1 & v1 & a & d & r & Hr & H1 & H2 & H3) H4].
      split; [|exact H4]. destruct (Hl' ρ l1 v1 Hr) as [v2 Hr']. exists l1, v2, a, d, r. auto.
  Qed.
  Lemma label_write π l v w ρ l' v' : D !! π = Some (l, v) -> D !! ρ = Some (l', v') ->
    label (<[π := (l, w)]> D) ρ = l'.
  Proof.
    intros H Hr. unfold label. destruct (decide (ρ = π)) as [->|Hne].
    - rewrite lookup_insert. congruence.
    - rewrite lookup_insert_ne by congruence. rewrite Hr. reflexivity.
  Qed.
  Lemma label_new π e ρ l' v' : D !! π = None -> D !! ρ = Some (l', v') -> label (<[π := e]> D) ρ = l'.
  Proof.
    intros H Hr. unfold label. rewrite lookup_insert_ne by congruence. rewrite Hr. reflexivity.
  Qed.
  Lemma dvalid_new S' π l v a d r c k z : S ⊆ S' -> c ∈ S' -> D !! π = Some (l, v) -> l = a ++ d :: r -> c <> d ->
    D !! ((length a, c) :: π) = None -> ((c = 0 /\ k = []) \/ (c <> 0 /\ okey k)) ->
    dvalid S' (<[(length a, c) :: π := (k, z)]> D).
  Proof.
    intros HS Hc Hl El Hcd Hnew Hk. split.
    - intros l' v' E. rewrite lookup_insert_ne in E by discriminate. apply (dv_root _ _ HD l' v' E).
    - intros m c' ρ l' v' E. destruct (decide ((m, c') :: ρ = (length a, c) :: π)) as [E'|Hne].
      + rewrite E' in E. rewrite lookup_insert in E. injection E as <- <-. injection E' as -> -> ->.
        split; [|split; assumption]. exists l, v, a, d, r. rewrite lookup_insert_ne.
        * auto.
        * intros E. apply (f_equal length) in E. simpl in E. lia.
      + rewrite lookup_insert_ne in E by congruence.
        destruct (dv_node _ _ HD m c' ρ l' v' E) as [(l1 & v1 & a1 & d1 & r1 & Hr & H1 & H2 & H3) [H4 H5]].
        split; [|split; [set_solver|exact H5]]. exists l1, v1, a1, d1, r1.
        rewrite lookup_insert_ne by congruence. auto.
  Qed.
  Lemma keyof_new π l v a d r c k z : D !! π = Some (l, v) -> l = a ++ d :: r ->
    D !! ((length a, c) :: π) = None ->
    keyof (<[(length a, c) :: π := (k, z)]> D) ((length a, c) :: π) = spell D π ++ a ++ c :: k.
  Proof.
    intros Hl El Hnew. unfold keyof. simpl spell.
    rewrite (spell_ext _ π (l, v) Hl) by (intros ρ l' v' Hr; apply (label_new _ _ ρ l' v' Hnew Hr)).
    rewrite (label_new _ _ π l v Hnew Hl), El, take_app. unfold label. rewrite lookup_insert.
    rewrite <- !app_assoc. reflexivity.
  Qed.
End pdt.
Lemma dvalid_mono S S' D : S ⊆ S' -> dvalid S D -> dvalid S' D.
Proof.
  intros HS HD. split; [apply (dv_root _ _ HD)|]. intros m c π l v H.
  destruct (dv_node _ _ HD m c π l v H) as (H1 & H2 & H3). split; [exact H1|]. split; [set_solver|exact H3].
Qed.

(** The dictionary of a labelled tree. *)
Definition dict_of (D : dmap) (M : gmap (list N) (list N)) : Prop :=
  (forall π l v, D !! π = Some (l, v) -> M !! keyof D π = Some v) /\
  (forall k v, M !! k = Some v -> exists π l, D !! π = Some (l, v) /\ keyof D π = k).

Lemma dict_write S D M π l v w : dvalid S D -> dict_of D M -> D !! π = Some (l, v) ->
  dict_of (<[π := (l, w)]> D) (<[keyof D π := w]> M).
Proof.
  intros HD [H1 H2] Hp.
  assert (Hk : forall ρ e, D !! ρ = Some e -> keyof (<[π := (l, w)]> D) ρ = keyof D ρ).
  { intros ρ e Hr. apply (keyof_ext S D HD _ ρ e Hr). intros ρ' l' v' Hr'. apply (label_write D π l v w ρ' l' v' Hp Hr'). }
  split.
  - intros ρ l' v' E. destruct (decide (ρ = π)) as [->|Hne].
    + rewrite lookup_insert in E. injection E as <- <-. rewrite (Hk π _ Hp). apply lookup_insert.
    + rewrite lookup_insert_ne in E by congruence. rewrite (Hk ρ _ E). rewrite lookup_insert_ne.
      * apply (H1 ρ l' v' E).
      * intros Ek. apply Hne. symmetry. apply (keyof_inj S D HD π ρ _ _ Hp E Ek).
  - intros k v' E. destruct (decide (k = keyof D π)) as [->|Hne].
    + rewrite lookup_insert in E. injection E as <-. exists π, l. rewrite lookup_insert. split; [reflexivity|apply (Hk π _ Hp)].
    + rewrite lookup_insert_ne in E by congruence. destruct (H2 k v' E) as (ρ & l' & Hr & Ek).
      exists ρ, l'. rewrite lookup_insert_ne by congruence. split; [exact Hr|]. rewrite (Hk ρ _ Hr). exact Ek.
Qed.
Lemma dict_new S D M π l v a d r c k z : dvalid S D -> dict_of D M -> D !! π = Some (l, v) -> l = a ++ d :: r ->
  c <> d -> D !! ((length a, c) :: π) = None ->
  dict_of (<[(length a, c) :: π := (k, z)]> D) (<[spell D π ++ a ++ c :: k := z]> M).
Proof.
  intros HD [H1 H2] Hp El Hcd Hnew. set (π' := (length a, c) :: π) in *.
  assert (Hk : forall ρ e, D !! ρ = Some e -> keyof (<[π' := (k, z)]> D) ρ = keyof D ρ).
  { intros ρ e Hr. apply (keyof_ext S D HD _ ρ e Hr). intros ρ' l' v' Hr'. apply (label_new D π' _ ρ' l' v' Hnew Hr'). }
  pose proof (keyof_new S D HD π l v a d r c k z Hp El Hnew) as Hkey. fold π' in Hkey.
  (* the new key is not the key of an existing node *)
  assert (Habs : forall ρ e, D !! ρ = Some e -> keyof D ρ <> spell D π ++ a ++ c :: k).
  { intros ρ [l' v'] Hr E. pose proof (reach_keyof S D HD ρ l' v' Hr) as Hreach. rewrite E in Hreach.
    assert (Hrp : reach D π (a ++ c :: k) ρ).
    { clear -HD Hreach Hp. revert Hreach. generalize (a ++ c :: k) as y. revert l v Hp.
      induction π as [|[m c0] π IH]; intros l v Hp y H; [exact H|].
      destruct (dv_node _ _ HD m c0 π l v Hp) as [(l' & v' & a' & d & r & Hl' & El & Hm & Hcd) _].
      simpl in H. rewrite (label_some _ _ _ _ Hl'), El, <- Hm, take_app in H. rewrite <- !app_assoc in H.
      apply (IH l' v' Hl') in H. simpl in H. rewrite <- Hm. eapply reach_next; eassumption. }
    pose proof (reach_next D π l v a c d k r ρ Hp El Hcd Hrp) as Hn. apply reach_some in Hn as [e He].
    fold π' in He. congruence. }
  split.
  - intros ρ l' v' E. destruct (decide (ρ = π')) as [->|Hne].
    + rewrite lookup_insert in E. injection E as <- <-. rewrite Hkey. apply lookup_insert.
    + rewrite lookup_insert_ne in E by congruence. rewrite (Hk ρ _ E). rewrite lookup_insert_ne.
      * apply (H1 ρ l' v' E).
      * intros Ek. apply (Habs ρ _ E). congruence.
  - intros k' v' E. destruct (decide (k' = spell D π ++ a ++ c :: k)) as [->|Hne].
    + rewrite lookup_insert in E. injection E as <-. exists π', k. rewrite lookup_insert. auto.
    + rewrite lookup_insert_ne in E by congruence. destruct (H2 k' v' E) as (ρ & l' & Hr & Ek).
      exists ρ, l'. rewrite lookup_insert_ne by congruence. split; [exact Hr|]. rewrite (Hk ρ _ Hr). exact Ek.
Qed.
Lemma dict_size S D M : dvalid S D -> dict_of D M -> size M = size D.
Proof.
  intros HD [H1 H2].
  set (ks := (fun x : node * (list N * list N) => keyof D (fst x)) <$> map_to_list D).
  assert (Hnd : NoDup ks).
  { apply NoDup_fmap_2_strong; [|apply NoDup_map_to_list].
    intros [π e] [ρ f] Hx Hy E. apply elem_of_map_to_list in Hx. apply elem_of_map_to_list in Hy.
    simpl in E. pose proof (keyof_inj S D HD π ρ e f Hx Hy E) as ->. congruence. }
  assert (Hdom : dom M = list_to_set (C := gset (list N)) ks).
  { apply set_eq. intros k. rewrite elem_of_dom, elem_of_list_to_set. unfold ks. rewrite elem_of_list_fmap. split.
    - intros [v Hv]. destruct (H2 k v Hv) as (π & l & Hp & Hk). exists (π, (l, v)). split; [symmetry; exact Hk|].
      apply elem_of_map_to_list, Hp.
    - intros ([π [l v]] & -> & Hx). apply elem_of_map_to_list in Hx. exists v. apply (H1 π l v Hx). }
  rewrite <- size_dom, Hdom, size_list_to_set by exact Hnd. unfold ks. rewrite fmap_length.
  reflexivity.
Qed.
