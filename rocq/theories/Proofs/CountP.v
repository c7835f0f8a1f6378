(** Counting the nodes a path-decomposed trie can have. *)
From Verif.Proofs Require Export PdtP.
From Verif.Props Require Export MapSpec.
Local Open Scope N_scope.

Section count.
  Context (e : N).
  Definition cost (k : list N) : N := 1 + (N.of_nat (length k) - 1) / 2 ^ e.
  Definition costs (ks : list (list N)) : N := foldr (fun k n => 1 + (N.of_nat (length k) - 1) / 2 ^ e + n) 0 ks.

  Lemma costs_cons k ks : costs (k :: ks) = cost k + costs ks.
  Proof. reflexivity. Qed.
  Lemma costs_app k1 k2 : costs (k1 ++ k2) = costs k1 + costs k2.
  Proof. induction k1 as [|k k1 IH]; [reflexivity|]. simpl app. rewrite !costs_cons, IH. lia. Qed.
  Lemma costs_perm k1 k2 : k1 ≡ₚ k2 -> costs k1 = costs k2.
  Proof. induction 1 as [|k k1 k2 _ IH|k k' k1|k1 k2 k3 _ IH1 _ IH2]; rewrite ?costs_cons; lia. Qed.
  Lemma cost_mono k l : (length k <= length l)%nat -> cost k <= cost l.
  Proof. intros H. unfold cost. apply N.add_le_mono_l. apply N.div_le_mono; [pose proof (pow2_pos e); lia|lia]. Qed.
  Lemma nb_costs K : node_bound e K = costs (elements K).
  Proof. reflexivity. Qed.
  Lemma nb_list ks : NoDup ks -> node_bound e (list_to_set ks) = costs ks.
  Proof. intros H. rewrite nb_costs. apply costs_perm, elements_list_to_set, H. Qed.
  Lemma nb_union K1 K2 : K1 ## K2 -> node_bound e (K1 ∪ K2) = node_bound e K1 + node_bound e K2.
  Proof. intros H. rewrite !nb_costs, <- costs_app. apply costs_perm, elements_disj_union, H. Qed.
  Lemma nb_mono K1 K2 : K1 ⊆ K2 -> node_bound e K1 <= node_bound e K2.
  Proof.
    intros H. rewrite (union_difference_L _ _ H), nb_union by set_solver. lia.
  Qed.
  Lemma nb_size K : N.of_nat (size K) <= node_bound e K.
  Proof.
    rewrite nb_costs. change (size K) with (length (elements K)). induction (elements K) as [|k ks IH]; [reflexivity|].
    rewrite costs_cons. cbn [length]. pose proof (N.le_0_l ((N.of_nat (length k) - 1) / 2 ^ e)) as H. unfold cost. clear -IH H. lia.
  Qed.
  Lemma nb_empty : node_bound e ∅ = 0.
  Proof. reflexivity. Qed.
  Lemma nb_insert K k : k ∉ K -> node_bound e ({[ k ]} ∪ K) = cost k + node_bound e K.
  Proof.
    intros H. rewrite nb_union by set_solver. f_equal. rewrite nb_costs, elements_singleton.
    rewrite costs_cons. unfold costs. simpl. lia.
  Qed.

  (** One node for each key if lambda is at least the key length. *)
  Lemma nb_short K : (forall k, k ∈ K -> N.of_nat (length k) <= 2 ^ e) -> node_bound e K = N.of_nat (size K).
  Proof.
    intros H. rewrite nb_costs. change (size K) with (length (elements K)).
    assert (H' : forall k, k ∈ elements K -> N.of_nat (length k) <= 2 ^ e) by (intros k Hk; apply H, elem_of_elements, Hk).
    clear H. induction (elements K) as [|k ks IH]; [reflexivity|]. rewrite costs_cons, IH by (intros k' Hk'; apply H'; right; exact Hk').
    unfold cost. rewrite N.div_small; [cbn [length]; lia|]. specialize (H' k ltac:(left)). pose proof (pow2_pos e). lia.
  Qed.

  (** At most the total length. *)
  Lemma cost_le k : k <> [] -> cost k <= N.of_nat (length k).
  Proof.
    intros H. destruct k as [|c k]; [congruence|]. unfold cost. simpl length.
    assert ((N.of_nat (S (length k)) - 1) / 2 ^ e <= N.of_nat (S (length k)) - 1); [|lia].
    pose proof (pow2_pos e).
    apply N.div_le_upper_bound; [lia|]. rewrite <- (N.mul_1_l (_ - 1)) at 1. apply N.mul_le_mono_r. lia.
  Qed.
  Lemma nodes_for_total ks : Forall (fun k => k <> []) ks -> nodes_for e ks <= total_length ks.
  Proof.
    unfold nodes_for, total_length. induction 1 as [|k ks Hk _ IH]; [reflexivity|].
    rewrite list_to_set_cons. cbn [concat]. rewrite app_length.
    destruct (decide (k ∈ (list_to_set ks : gset (list N)))) as [H|H].
    - replace ({[k]} ∪ list_to_set ks) with (list_to_set ks : gset (list N)) by set_solver. lia.
    - rewrite nb_insert by exact H. pose proof (cost_le k Hk). lia.
  Qed.

  (** *** The possible nodes of a tree *)
  Definition fits (D : dmap) (j : nat) (π : node) : Prop :=
    exists l v, D !! π = Some (l, v) /\ N.of_nat j <= (N.of_nat (length l) - 1) / 2 ^ e.
  Lemma fits_some D j π : fits D j π -> is_Some (D !! π).
  Proof. intros (l & v & H & _). eauto. Qed.
  Lemma fits_0 D π : is_Some (D !! π) -> fits D 0 π.
  Proof. intros [[l v] H]. exists l, v. split; [exact H|]. apply N.le_0_l. Qed.
  Lemma fits_ext D D' j π : (forall l v, D !! π = Some (l, v) -> exists v', D' !! π = Some (l, v')) ->
    fits D j π -> fits D' j π.
  Proof. intros H (l & v & Hl & Hj). destruct (H l v Hl) as [v' Hv]. exists l, v'. auto. Qed.
  Lemma fits_split D π l v (a : list N) d r i : D !! π = Some (l, v) -> l = a ++ d :: r ->
    N.of_nat i <= N.of_nat (length a) / 2 ^ e -> fits D i π.
  Proof.
    intros H E Hi. exists l, v. split; [exact H|]. etransitivity; [exact Hi|].
    apply N.div_le_mono; [pose proof (pow2_pos e); lia|]. rewrite E, app_length. simpl. lia.
  Qed.

  Lemma size_list_le {A} `{Countable A} (l : list A) : (size (list_to_set l : gset A) <= length l)%nat.
  Proof.
    induction l as [|x l IH]; [reflexivity|]. rewrite list_to_set_cons.
    rewrite size_union_alt, size_singleton. cbn [length].
    assert (size ((list_to_set l : gset A) ∖ {[x]}) <= size (list_to_set l : gset A))%nat; [|lia].
    apply subseteq_size. set_solver.
  Qed.

  Context (path : nat -> node -> list N).
  Definition slots (x : node * (list N * list N)) : list (list N) :=
    (fun j => path j (fst x)) <$> seq 0 (N.to_nat (cost (fst (snd x)))).
  Definition all_slots (D : dmap) : gset (list N) := list_to_set (concat (slots <$> map_to_list D)).
  Lemma all_slots_in D j π : fits D j π -> path j π ∈ all_slots D.
  Proof.
    intros (l & v & H & Hj). unfold all_slots. apply elem_of_list_to_set.
    apply elem_of_list_In, in_concat. exists (slots (π, (l, v))). split.
    - apply elem_of_list_In, elem_of_list_fmap. exists (π, (l, v)). split; [reflexivity|]. apply elem_of_map_to_list, H.
    - apply elem_of_list_In, elem_of_list_fmap. exists j. split; [reflexivity|]. apply elem_of_seq. unfold cost. simpl fst. simpl snd. lia.
  Qed.
  Lemma all_slots_size S D M : dvalid S D -> dict_of D M -> N.of_nat (size (all_slots D)) <= node_bound e (dom M).
  Proof.
    intros HD [H1 _].
    set (key := fun x : node * (list N * list N) => keyof D (fst x)).
    assert (Hnd : NoDup (key <$> map_to_list D)).
    { apply NoDup_fmap_2_strong; [|apply NoDup_map_to_list].
      intros [π f] [ρ g] Hx Hy E. apply elem_of_map_to_list in Hx. apply elem_of_map_to_list in Hy.
      unfold key in E. simpl in E. pose proof (keyof_inj S D HD π ρ f g Hx Hy E) as ->. congruence. }
    etransitivity; [|apply (nb_mono (list_to_set (key <$> map_to_list D)))].
    2:{ intros k. rewrite elem_of_list_to_set, elem_of_dom, elem_of_list_fmap. intros ([π [l v]] & -> & Hx).
        apply elem_of_map_to_list in Hx. exists v. apply (H1 π l v Hx). }
    rewrite (nb_list _ Hnd). unfold all_slots.
    pose proof (size_list_le (concat (slots <$> map_to_list D))) as Hs.
    apply (N.le_trans _ (N.of_nat (length (concat (slots <$> map_to_list D))))); [lia|].
    assert (Hall : forall x, x ∈ map_to_list D -> D !! fst x = Some (snd x)).
    { intros [π f] Hx. apply elem_of_map_to_list, Hx. }
    clear Hs Hnd. induction (map_to_list D) as [|x xs IH]; [reflexivity|].
    rewrite !fmap_cons, costs_cons. cbn [concat]. rewrite app_length.
    assert (N.of_nat (length (slots x)) <= cost (key x)).
    { unfold slots. rewrite fmap_length, seq_length, N2Nat.id. apply cost_mono. unfold key, keyof.
      specialize (Hall x ltac:(left)). destruct x as [π [l v]]. simpl in *. unfold label. rewrite Hall, app_length. lia. }
    specialize (IH ltac:(intros y Hy; apply Hall; right; exact Hy)). lia.
  Qed.
End count.
