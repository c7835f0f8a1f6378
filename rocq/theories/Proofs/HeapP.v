(** Facts about the heap of byte blocks. *)
From Verif.Proofs Require Export StoreP.
From Verif.Model Require Export Heap.
Local Open Scope N_scope.

(** ** Total size of the allocated blocks *)
Definition olen (o : option (list N)) : N := match o with Some b => N.of_nat (length b) | None => 0 end.
Lemma tr_total_add k x t :
  tr_total (PositiveMap.add k x t) + olen (PositiveMap.find k t) = tr_total t + N.of_nat (length x).
Proof.
  revert t. induction k as [k IH|k IH|]; intros [|l o r]; simpl.
  - specialize (IH (PositiveMap.Leaf _)). rewrite PositiveMap.gleaf in IH. simpl in *. lia.
  - specialize (IH r). lia.
  - specialize (IH (PositiveMap.Leaf _)). rewrite PositiveMap.gleaf in IH. simpl in *. lia.
  - specialize (IH l). lia.
  - lia.
  - destruct o; simpl; lia.
Qed.
Lemma tr_total_remove k t :
  tr_total (PositiveMap.remove k t) + olen (PositiveMap.find k t) = tr_total t.
Proof.
  revert t. induction k as [k IH|k IH|]; intros [|l o r]; simpl; try lia.
  - specialize (IH r). destruct l, o; try (simpl; lia).
    destruct (PositiveMap.remove k r) eqn:E; rewrite ?E in *; simpl in *; lia.
  - specialize (IH l). destruct o; [simpl; lia|]. destruct r; [|simpl; lia].
    destruct (PositiveMap.remove k l) eqn:E; rewrite ?E in *; simpl in *; lia.
  - destruct o, l, r; simpl; lia.
Qed.

Lemma hp_find_empty id : hp_find hp_empty id = None.
Proof. unfold hp_find, hp_empty. simpl. apply PositiveMap.gempty. Qed.
Lemma hp_total_empty : hp_total hp_empty = 0.
Proof. reflexivity. Qed.

Definition hp_add (h : heap) (id : N) (blk : list N) : PositiveMap.t (list N) :=
  PositiveMap.add (N.succ_pos id) blk (h_mem h).
Lemma find_add h id blk nx j :
  hp_find (mkHeap nx (hp_add h id blk)) j = if j =? id then Some blk else hp_find h j.
Proof.
  unfold hp_find, hp_add. cbn [h_mem]. destruct (N.eqb_spec j id) as [->|Hne].
  - apply PositiveMap.gss.
  - apply PositiveMap.gso. intros H. apply Hne, succ_pos_inj, H.
Qed.
Lemma hp_find_free h id j : hp_find (hp_free h id) j = if j =? id then None else hp_find h j.
Proof.
  unfold hp_find, hp_free. cbn [h_mem]. destruct (N.eqb_spec j id) as [->|Hne].
  - apply PositiveMap.grs.
  - apply PositiveMap.gro. intros H. apply Hne, succ_pos_inj, H.
Qed.
Lemma hp_total_add h id blk nx :
  hp_total (mkHeap nx (hp_add h id blk)) + olen (hp_find h id) = hp_total h + N.of_nat (length blk).
Proof. apply tr_total_add. Qed.
Lemma hp_total_free h id : hp_total (hp_free h id) + olen (hp_find h id) = hp_total h.
Proof. apply tr_total_remove. Qed.

(** Identifiers in use are below [h_next]. *)
Definition hp_ok (h : heap) : Prop := forall id blk, hp_find h id = Some blk -> id < h_next h.
Lemma hp_ok_empty : hp_ok hp_empty.
Proof. intros id blk H. rewrite hp_find_empty in H. discriminate. Qed.
Lemma hp_fresh h : hp_ok h -> hp_find h (h_next h) = None.
Proof.
  intros H. destruct (hp_find h (h_next h)) as [b|] eqn:E; [|reflexivity]. specialize (H _ _ E). lia.
Qed.
Definition hp_push (h : heap) (blk : list N) : heap := mkHeap (h_next h + 1) (hp_add h (h_next h) blk).
Lemma hp_alloc_eq h blk : hp_alloc h blk = (h_next h, hp_push h blk).
Proof. reflexivity. Qed.
Lemma find_push h blk j : hp_find (hp_push h blk) j = if j =? h_next h then Some blk else hp_find h j.
Proof. apply find_add. Qed.
Lemma hp_ok_push h blk : hp_ok h -> hp_ok (hp_push h blk).
Proof.
  intros H id b Hf. rewrite find_push in Hf. unfold hp_push; cbn [h_next].
  destruct (N.eqb_spec id (h_next h)) as [->|]; [lia|]. specialize (H _ _ Hf). lia.
Qed.
Lemma hp_total_push h blk : hp_ok h -> hp_total (hp_push h blk) = hp_total h + N.of_nat (length blk).
Proof.
  intros H. pose proof (hp_total_add h (h_next h) blk (h_next h + 1)) as E.
  rewrite (hp_fresh h H) in E. simpl olen in E. unfold hp_push. lia.
Qed.
Lemma hp_ok_free h id : hp_ok h -> hp_ok (hp_free h id).
Proof.
  intros H j b Hf. rewrite hp_find_free in Hf. destruct (j =? id); [discriminate|].
  exact (H _ _ Hf).
Qed.

(** Releasing what an owner holds. *)
Definition hp_free_opt (h : heap) (o : option N) : heap :=
  match o with Some id => hp_free h id | None => h end.
Lemma hp_delete_ok h o : (forall id, o = Some id -> is_Some (hp_find h id)) -> hp_delete h o = Ret (hp_free_opt h o).
Proof.
  intros H. destruct o as [id|]; [|reflexivity]. destruct (H id eq_refl) as [blk E].
  unfold hp_delete, hp_block. rewrite E. reflexivity.
Qed.
Lemma hp_delete_push h blk o : (forall id, o = Some id -> is_Some (hp_find h id)) ->
  hp_delete (hp_push h blk) o = Ret (hp_free_opt (hp_push h blk) o).
Proof.
  intros H. apply hp_delete_ok. intros id E. rewrite find_push. destruct (id =? h_next h); [eauto|apply H, E].
Qed.

(** ** Reading and writing *)
Lemma slice_app a b c off n : N.of_nat (length a) = off -> N.of_nat (length b) = n ->
  slice (a ++ b ++ c) off n = Ret b.
Proof.
  intros <- <-. unfold slice. rewrite !app_length.
  destruct (N.leb_spec (N.of_nat (length a) + N.of_nat (length b))
              (N.of_nat (length a + (length b + length c)))); [|lia].
  rewrite !Nat2N.id, drop_app, take_app. reflexivity.
Qed.
Lemma read_app h id a b c vs : hp_find h id = Some (a ++ b ++ c) -> length b = vs ->
  hp_read h (id, N.of_nat (length a)) vs = Ret b.
Proof.
  intros H Hb. unfold hp_read, hp_block. simpl fst. rewrite H, bind_ret. apply slice_app; [reflexivity|].
  simpl. lia.
Qed.
Lemma write_app h id a b c w : hp_find h id = Some (a ++ b ++ c) -> length w = length b ->
  hp_write h (id, N.of_nat (length a)) w =
  Ret (mkHeap (h_next h) (hp_add h id (a ++ w ++ c))).
Proof.
  intros H Hb. unfold hp_write, hp_block. cbn [fst snd]. rewrite H, bind_ret. rewrite !app_length.
  destruct (N.leb_spec (N.of_nat (length a) + N.of_nat (length w))
              (N.of_nat (length a + (length b + length c)))); [|lia].
  rewrite Nat2N.id, take_app. unfold hp_add. do 4 f_equal.
  rewrite Hb, <- drop_drop, !drop_app. reflexivity.
Qed.
