(** Sums over finite maps. *)
From Verif.Proofs Require Export EntriesP CompactBonsaiNlmP CompactFkNlmP.
From Verif.Proofs Require Import PlainNlmP.
From Verif.Proofs Require Export InstP.
From Verif.Props Require Export AllocSpec.
Local Open Scope N_scope.

Lemma w64_le x : w64 x <= x.
Proof. rewrite w64_mod. apply N.mod_le. discriminate. Qed.

Section msum.
  Context {K} `{Countable K} {A : Type}.
  Definition msum (c : K -> A -> N) (m : gmap K A) : N := map_fold (fun k x a => c k x + a) 0 m.
  Lemma msum_empty c : msum c ∅ = 0.
  Proof. apply map_fold_empty. Qed.
  Lemma msum_insert c m k x : m !! k = None -> msum c (<[k := x]> m) = c k x + msum c m.
  Proof. intros E. unfold msum. rewrite map_fold_insert_L; [reflexivity| |exact E]. intros. lia. Qed.
  Lemma msum_delete c m k x : m !! k = Some x -> msum c m = c k x + msum c (delete k m).
  Proof. intros E. rewrite <- (insert_delete m k x E) at 1. apply msum_insert, lookup_delete. Qed.
  Lemma msum_mono c c' m : (forall k x, m !! k = Some x -> c k x <= c' k x) -> msum c m <= msum c' m.
  Proof.
    induction m as [|k x m E IH] using map_ind; intros Hc; [rewrite !msum_empty; lia|].
    rewrite !msum_insert by exact E. apply N.add_le_mono.
    - apply Hc, lookup_insert.
    - apply IH. intros j y Hj. apply Hc. rewrite lookup_insert_ne; [exact Hj|congruence].
  Qed.
End msum.
(** Costs of entries are bounded by costs of distinct related entries. *)
Lemma msum_le {K1 K2} `{Countable K1} `{Countable K2} {A B} (c1 : K1 -> A -> N) (c2 : K2 -> B -> N) (R : K1 -> K2 -> Prop)
  (m1 : gmap K1 A) (m2 : gmap K2 B) :
  (forall k x, m1 !! k = Some x -> exists j y, R k j /\ m2 !! j = Some y /\ c1 k x <= c2 j y) ->
  (forall k k' j, is_Some (m1 !! k) -> is_Some (m1 !! k') -> R k j -> R k' j -> k = k') ->
  msum c1 m1 <= msum c2 m2.
Proof.
  revert m2. induction m1 as [|k x m1 E IH] using map_ind; intros m2 Hc Hi; [rewrite msum_empty; lia|].
  rewrite msum_insert by exact E. destruct (Hc k x (lookup_insert _ _ _)) as (j & y & Hr & Hj & Hle).
  rewrite (msum_delete c2 m2 j y Hj). apply N.add_le_mono; [exact Hle|]. apply IH.
  - intros k' x' Hk'. assert (Hne : k <> k') by congruence.
    assert (Hin : <[k := x]> m1 !! k' = Some x') by (rewrite lookup_insert_ne; assumption).
    destruct (Hc k' x' Hin) as (j' & y' & Hr' & Hj' & Hle'). exists j', y'. split; [exact Hr'|]. split; [|exact Hle'].
    rewrite lookup_delete_ne; [exact Hj'|]. intros ->. apply Hne. apply (Hi k k' j'); [rewrite lookup_insert; eauto|eauto|exact Hr|exact Hr'].
  - intros k1 k2 j' [x1 H1] [x2 H2]. apply Hi; (rewrite lookup_insert_ne; [eauto|congruence]).
Qed.
Lemma tot_msum m : tot m = msum (fun _ e => esz e) m.
Proof. reflexivity. Qed.

(** Sums over an initial segment. *)
Lemma sumn_add f g n : sumn (fun i => f i + g i) n = sumn f n + sumn g n.
Proof. induction n as [|n IH]; simpl; [reflexivity|]. rewrite IH. lia. Qed.
Lemma sumn_zero n : sumn (fun _ => 0) n = 0.
Proof. induction n as [|n IH]; simpl; [reflexivity|]. rewrite IH. reflexivity. Qed.
Lemma sumn_const a n : sumn (fun _ => a) n = N.of_nat n * a.
Proof. induction n as [|n IH]; simpl sumn; [lia|]. rewrite IH. lia. Qed.
Lemma sumn_single x a n : x < N.of_nat n -> sumn (fun i => if i =? x then a else 0) n = a.
Proof.
  intros Hx. revert Hx. induction n as [|n IH]; intros Hx; [lia|]. simpl.
  destruct (N.eqb_spec (N.of_nat n) x) as [<-|Hne].
  - rewrite (sumn_ext _ (fun _ => 0)); [rewrite sumn_zero; reflexivity|].
    intros i Hi. destruct (N.eqb_spec i (N.of_nat n)); [lia|reflexivity].
  - rewrite IH by lia. lia.
Qed.
Lemma sumn_msum {A} (c : A -> N) (m : gmap N A) n : (forall x e, m !! x = Some e -> x < N.of_nat n) ->
  sumn (fun i => match m !! i with Some e => c e | None => 0 end) n = msum (fun _ e => c e) m.
Proof.
  induction m as [|x e m E IH] using map_ind; intros Hn.
  - rewrite msum_empty. rewrite (sumn_ext _ (fun _ => 0)); [apply sumn_zero|]. intros i _. rewrite lookup_empty. reflexivity.
  - rewrite msum_insert by exact E. rewrite <- IH.
    2:{ intros y f Hy. apply (Hn y f). rewrite lookup_insert_ne; [exact Hy|congruence]. }
    rewrite <- (sumn_single x (c e) n) by (apply (Hn x e), lookup_insert). rewrite <- sumn_add. apply sumn_ext.
    intros i _. destruct (N.eqb_spec i x) as [->|Hne].
    + rewrite lookup_insert, E. lia.
    + rewrite lookup_insert_ne by congruence. reflexivity.
Qed.

(** ** Plain stores: every label has its own block *)
Lemma prep_total vs ptrs h bytes m : prep vs ptrs h bytes m ->
  hp_total h = msum (fun _ e => N.of_nat (length (fst e)) + N.of_nat vs) m.
Proof.
  intros R. pose (lk := fun i => if i <? vlen ptrs then vnth ptrs i else None).
  pose (B := fun i => match m !! i with Some (l, v) => Some (l ++ v) | None => None end).
  assert (Hin : forall i id, lk i = Some id -> i < vlen ptrs /\ vnth ptrs i = Some id).
  { unfold lk. intros i id Hi. destruct (N.ltb_spec i (vlen ptrs)); [auto|discriminate]. }
  assert (Ho : owns lk h B).
  { split.
    - intros i id Hi. destruct (Hin i id Hi) as [H1 H2]. destruct (pr_some _ _ _ _ _ R i id H1 H2) as (l & v & Hm & _ & Hf).
      exists (l ++ v). split; [exact Hf|]. unfold B. rewrite Hm. reflexivity.
    - intros i. unfold lk, B. destruct (N.ltb_spec i (vlen ptrs)) as [Hl|Hl].
      + intros Hi. rewrite (pr_none _ _ _ _ _ R i Hl Hi). reflexivity.
      + intros _. destruct (m !! i) as [[l v]|] eqn:E; [|reflexivity]. apply (pr_dom _ _ _ _ _ R) in E. lia.
    - intros i j id Hi Hj. destruct (Hin _ _ Hi), (Hin _ _ Hj). eapply (pr_inj _ _ _ _ _ R); eassumption.
    - intros id blk Hf. destruct (pr_own _ _ _ _ _ R id blk Hf) as (x & Hx & E). exists x. unfold lk.
      rewrite (proj2 (N.ltb_lt _ _) Hx). exact E.
    - apply (pr_ok _ _ _ _ _ R). }
  rewrite (owns_total (N.to_nat (vlen ptrs)) lk h B Ho).
  2:{ intros i Hi. unfold lk. destruct (N.ltb_spec i (vlen ptrs)); [lia|reflexivity]. }
  rewrite <- (sumn_msum _ _ (N.to_nat (vlen ptrs))).
  2:{ intros x e Hx. apply (pr_dom _ _ _ _ _ R) in Hx. lia. }
  apply sumn_ext. intros i Hi. unfold B. destruct (m !! i) as [[l v]|] eqn:E; [|reflexivity]. simpl olen. simpl fst.
  assert (Hl : i < vlen ptrs) by (apply (pr_dom _ _ _ _ _ R _ _ E)).
  destruct (vnth ptrs i) as [id|] eqn:Ei; [|rewrite (pr_none _ _ _ _ _ R i Hl Ei) in E; discriminate].
  destruct (pr_some _ _ _ _ _ R i id Hl Ei) as (l' & v' & Hm & Hv & _). rewrite Hm in E. injection E as -> ->.
  rewrite app_length, Hv. lia.
Qed.

(** ** Compact stores *)
Lemma vb_header n : N.of_nat (length (vb n)) <= header n.
Proof.
  unfold header. destruct (N.eq_dec n 0) as [->|Hn]; [vm_compute; discriminate|].
  pose proof (N.log2_spec n ltac:(lia)) as [_ H]. pose proof (N.div_mod (N.log2 n) 7 ltac:(lia)) as Hd.
  pose proof (N.mod_lt (N.log2 n) 7 ltac:(lia)) as Hm. set (q := N.log2 n / 7) in *.
  pose proof (vb_length_le n (N.to_nat (q + 1))) as Hv. rewrite N2Nat.id in Hv.
  assert (Hle : (length (vb n) <= N.to_nat (q + 1))%nat); [|lia].
  apply Hv; [|lia]. eapply N.lt_le_trans; [exact H|]. apply N.pow_le_mono_r; lia.
Qed.
Lemma header_mono a b : a <= b -> header a <= header b.
Proof. intros H. unfold header. apply N.add_le_mono_r, N.div_le_mono; [discriminate|]. apply N.log2_le_mono, H. Qed.
Lemma esz_le l v n : N.of_nat (length l) - 1 + N.of_nat (length v) <= n -> esz (l, v) <= n + header n.
Proof.
  intros H. assert (Hb : N.of_nat (length (body (l, v))) <= n).
  { unfold body. cbn [fst snd]. rewrite app_length. unfold stored_label. rewrite firstn_length. lia. }
  unfold esz, enc. rewrite app_length. pose proof (vb_header (N.of_nat (length (body (l, v))))) as H1.
  pose proof (header_mono _ _ Hb). lia.
Qed.

Definition fsz (o : option (list N * list N)) : N := N.of_nat (length (EntriesP.enc (fcell o))).
Lemma fsz_none : fsz None = 1.
Proof. reflexivity. Qed.
Lemma encs_fents m base n : N.of_nat (length (encs (fents m base n))) = sumn (fun j => fsz (m !! (base + j))) n.
Proof.
  induction n as [|n IH]; [reflexivity|]. simpl. rewrite encs_app, app_length, encs_one, Nat2N.inj_add, IH. reflexivity.
Qed.
Lemma sumn_app f a b : sumn f (a + b) = sumn f a + sumn (fun j => f (N.of_nat a + j)) b.
Proof.
  induction b as [|b IH]; [rewrite Nat.add_0_r; simpl; lia|]. rewrite Nat.add_succ_r. simpl. rewrite IH.
  replace (N.of_nat (a + b)) with (N.of_nat a + N.of_nat b) by lia. lia.
Qed.
Lemma sumn_le_more f a b : (a <= b)%nat -> sumn f a <= sumn f b.
Proof. intros H. replace b with (a + (b - a))%nat by lia. rewrite sumn_app. lia. Qed.
Lemma released_sum cs c m C : N.of_nat C * cs <= c -> 0 < cs ->
  released cs c m (N.of_nat C) = sumn (fun x => fsz (m !! x)) (N.to_nat (N.of_nat C * cs)).
Proof.
  intros Hc Hcs. unfold released. rewrite Nat2N.id. induction C as [|C IH]; [reflexivity|].
  cbn [sumn]. rewrite IH by lia. replace (N.to_nat (N.of_nat (S C) * cs)) with (N.to_nat (N.of_nat C * cs) + N.to_nat cs)%nat by lia.
  rewrite sumn_app. f_equal. unfold fblocks. destruct (N.ltb_spec (N.of_nat C * cs) c) as [H|H]; [|lia].
  cbn [olen]. rewrite encs_fents. unfold fcount. replace (N.min cs (c - N.of_nat C * cs)) with cs by lia.
  rewrite N2Nat.id. reflexivity.
Qed.
Lemma released_le cs vs c n m : width_ok cs -> cfn_rep cs vs c n m -> cfn_bytes n <= msum (fun _ e => esz e) m + c.
Proof.
  intros Hcs R. rewrite (CompactFkNlmP.fr_bytes _ _ _ _ _ R). eapply N.le_trans; [apply w64_le|].
  assert (H0 : 0 < cs). { unfold width_ok in Hcs. lia. }
  pose proof (N.div_le_mono (c - 1) c cs ltac:(lia) ltac:(lia)) as Hd.
  pose proof (N.mul_div_le c cs ltac:(lia)) as Hm.
  set (C := (c - 1) / cs) in *. assert (HC : C * cs <= c). { pose proof (N.mul_le_mono_r _ _ cs Hd). lia. }
  rewrite <- (N2Nat.id C), released_sum by (rewrite ?N2Nat.id; assumption). rewrite N2Nat.id.
  eapply N.le_trans; [apply (sumn_le_more _ _ (N.to_nat c)); lia|].
  rewrite <- (sumn_msum esz m (N.to_nat c)).
  2:{ intros x [l v] Hx. destruct (CompactFkNlmP.fr_good _ _ _ _ _ R x l v Hx) as (H & _). lia. }
  assert (Hs : forall k, sumn (fun x => fsz (m !! x)) k <= sumn (fun x => match m !! x with Some e => esz e | None => 0 end) k + N.of_nat k).
  { induction k as [|k IH]; [reflexivity|]. cbn [sumn]. destruct (m !! N.of_nat k) as [e|]; [change (fsz (Some e)) with (esz e)|rewrite fsz_none]; lia. }
  specialize (Hs (N.to_nat c)). lia.
Qed.
