(** Keys, labels and their longest common prefixes. *)
From Verif.Proofs Require Export StoreP.
Local Open Scope N_scope.

Lemma okey_cons c k : okey (c :: k) <-> (c = 0 /\ k = []) \/ (c <> 0 /\ okey k).
Proof.
  split.
  - intros (s & E & Hs). destruct s as [|c' s]; simpl in E.
    + injection E as -> ->. auto.
    + injection E as -> ->. right. split.
      * intros ->. apply Hs. left. reflexivity.
      * exists s. split; [reflexivity|]. intros H. apply Hs. right. exact H.
  - intros [[-> ->]|[Hc (s & -> & Hs)]].
    + exists []. split; [reflexivity|]. intros [].
    + exists (c :: s). split; [reflexivity|]. intros [H|H]; [apply Hc; auto|apply Hs, H].
Qed.
Lemma okey_nil : ~ okey [].
Proof. intros (s & E & _). destruct s; discriminate. Qed.

(** What two different keys look like. *)
Lemma lcp_split k l : (lcp k l <= length k)%nat /\ (lcp k l <= length l)%nat /\
  firstn (lcp k l) k = firstn (lcp k l) l.
Proof.
  revert l. induction k as [|x k IH]; intros [|y l]; simpl; try (split; [lia|split; [lia|reflexivity]]).
  destruct (N.eqb_spec x y) as [->|]; simpl; [|split; [lia|split; [lia|reflexivity]]].
  destruct (IH l) as (H1 & H2 & H3). split; [lia|]. split; [lia|]. rewrite H3. reflexivity.
Qed.
Lemma okey_diff k l : okey k -> okey l -> k <> l ->
  exists a c d k' l', k = a ++ c :: k' /\ l = a ++ d :: l' /\ c <> d /\ length a = lcp k l.
Proof.
  revert l. induction k as [|x k IH]; intros [|y l] Hk Hl Hne; try (destruct (okey_nil ltac:(assumption))).
  destruct (N.eq_dec x y) as [->|Hxy].
  - apply okey_cons in Hk as [[-> ->]|[Hc Hk]]; apply okey_cons in Hl as [[H ->]|[Hd Hl]]; subst; try congruence.
    destruct (IH l Hk Hl) as (a & c & d & k' & l' & Ek & El & Hcd & Ha); [congruence|].
    exists (y :: a), c, d, k', l'. simpl. rewrite N.eqb_refl, Ha. split; [congruence|]. split; [congruence|].
    split; [exact Hcd|reflexivity].
  - exists [], x, y, k, l. simpl. rewrite (proj2 (N.eqb_neq _ _) Hxy). auto.
Qed.
Lemma okey_lcp k l : okey k -> okey l -> k <> l -> (lcp k l < length k)%nat /\ (lcp k l < length l)%nat.
Proof.
  intros Hk Hl Hne. destruct (okey_diff k l Hk Hl Hne) as (a & c & d & k' & l' & Ek & El & _ & Ha).
  rewrite <- Ha. rewrite Ek, El, !app_length. simpl. lia.
Qed.
Lemma okey_skip a c k : okey (a ++ c :: k) -> (c = 0 /\ k = []) \/ (c <> 0 /\ okey k).
Proof.
  induction a as [|x a IH]; intros H; [apply okey_cons, H|].
  simpl in H. apply okey_cons in H as [[_ H]|[_ H]]; [|exact (IH H)]. destruct a; discriminate.
Qed.
Lemma lcp_app a c d k l : c <> d -> lcp (a ++ c :: k) (a ++ d :: l) = length a.
Proof.
  intros H. induction a as [|x a IH]; simpl.
  - rewrite (proj2 (N.eqb_neq _ _) H). reflexivity.
  - rewrite N.eqb_refl, IH. reflexivity.
Qed.
Lemma okey_last k : okey k -> k <> [] /\ List.last k 0 = 0.
Proof.
  intros (s & -> & _). split; [destruct s; discriminate|]. apply last_last.
Qed.
