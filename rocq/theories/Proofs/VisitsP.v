(** The ghost counters of Visits.v (C55). *)
From Verif.Model Require Import Visits.
From Verif.Proofs Require Import InstP OomP.
Local Open Scope N_scope.

(** ** A comparison that fails stops inside the key *)
Definition compare_le (NO : nlm_ops) : Prop := forall n pos key m,
  n_compare NO n pos key = Ret (None, m) -> m <= N.of_nat (length key).
Lemma plain_cmp_le key : forall blk i m, plain_cmp key blk i = Ret (false, m) -> m <= i + N.of_nat (length key).
Proof.
  induction key as [|k key IH]; intros blk i m H; cbn [plain_cmp] in H; [discriminate|].
  destruct blk as [|x blk]; [discriminate|]. destruct (k =? x).
  - specialize (IH _ _ _ H). cbn [length]. lia.
  - injection H as <-. lia.
Qed.
Lemma plain_compare_le ptrs h pos key m : plain_compare ptrs h pos key = Ret (None, m) -> m <= N.of_nat (length key).
Proof.
  unfold plain_compare. intros H. apply bind_inv in H as (? & _ & H). apply bind_inv in H as (p & _ & H).
  destruct p as [id|]; [|discriminate]. apply bind_inv in H as (blk & _ & H). destruct key as [|c key]; [discriminate|].
  apply bind_inv in H as ([ok i] & E & H). cbn [fst snd] in H. destruct ok; [discriminate|]. injection H as <-.
  apply (plain_cmp_le _ _ _ _ E).
Qed.
Lemma label_cmp_le key : forall blk len i m, label_cmp key blk len i = Ret (false, m) -> m <= i + N.of_nat (length key).
Proof.
  induction key as [|k key IH]; intros blk len i m H; cbn [label_cmp] in H; [discriminate|].
  destruct (len =? 0); [injection H as _ <-; lia|].
  destruct blk as [|x blk]; [discriminate|]. destruct (k =? x).
  - specialize (IH _ _ _ _ H). cbn [length]. lia.
  - injection H as <-. lia.
Qed.
Lemma entry_compare_le chk vs id blk skip key m : entry_compare chk vs id blk skip key = Ret (None, m) ->
  m <= N.of_nat (length key).
Proof.
  unfold entry_compare. intros H. apply bind_inv in H as (? & _ & H). apply bind_inv in H as (? & _ & H). cbv zeta in H.
  destruct key as [|c key]; [discriminate|]. apply bind_inv in H as (? & _ & H).
  apply bind_inv in H as ([ok i] & E & H). cbn [fst snd] in H. destruct ok; [discriminate|]. injection H as <-.
  apply (label_cmp_le _ _ _ _ _ E).
Qed.
Lemma cbn_compare_le cs vs n pos key m : cbn_compare cs vs n pos key = Ret (None, m) -> m <= N.of_nat (length key).
Proof.
  unfold cbn_compare. destruct (decompose_value cs pos) as [ch ps]. intros H. apply bind_inv in H as (p & _ & H).
  destruct p as [id|]; [|discriminate]. do 5 (apply bind_inv in H as (? & _ & H)). apply (entry_compare_le _ _ _ _ _ _ _ H).
Qed.
Lemma cfn_compare_le cs vs n pos key m : cfn_compare cs vs n pos key = Ret (None, m) -> m <= N.of_nat (length key).
Proof.
  unfold cfn_compare. intros H. apply bind_inv in H as (? & _ & H). destruct (decompose_value cs pos) as [ch ps].
  apply bind_inv in H as (p & _ & H). destruct p as [id|]; [|discriminate]. apply bind_inv in H as (? & _ & H).
  apply (entry_compare_le _ _ _ _ _ _ _ H).
Qed.
Lemma i_compare_le vs i : compare_le (i_nlm vs i).
Proof.
  intros n pos key m. destruct i as [[] [c|]]; first
    [exact (plain_compare_le _ _ pos key m)|exact (cbn_compare_le (cs_val c) vs n pos key m)|exact (cfn_compare_le (cs_val c) vs n pos key m)].
Qed.

Section visits.
  Context (dbg : bool) (TO : trie_ops) (NO : nlm_ops).
  Hypothesis HC : compare_le NO.
  Notation map_st := (map_st TO NO).

  (** ** Without the counters *)
  Lemma find_steps_same lam t x mt : find_steps TO lam t x mt = let* r := find_steps_v TO lam t x mt in Ret (fst r).
  Proof.
    unfold find_steps, find_steps_v. change (x, mt) with ((fun s : N * N * N => fst s) (x, mt, 0)).
    apply (loop_sim _ _ (fun s : N * N * N => fst s) (fun r : option (N * N) * N => fst r)). intros [[y m] s]. cbn [fst].
    destruct (lam <=? m); [|reflexivity]. destruct (t_find_child TO t y step_symb) as [z| | | |]; try reflexivity. cbn [bind].
    destruct (z =? nil_id); reflexivity.
  Qed.
  Lemma find_same (m : map_st) k : map_find dbg TO NO m k = let* r := map_find_v dbg TO NO m k in Ret (fst r).
  Proof.
    unfold map_find, map_find_v. destruct (check_key k) as [[]| | | |]; try reflexivity. cbn [bind].
    destruct (_ || _); [reflexivity|]. destruct (t_get_root TO _) as [root| | | |]; try reflexivity. cbn [bind].
    change (root, k) with ((fun s : N * list N * visits => fst s) (root, k, mkVisits 0 0 0)).
    apply (loop_sim (find_body_v dbg TO NO m) _ (fun s : N * list N * visits => fst s) (fun r : option ptr * visits => fst r)).
    intros [[x key] v]. unfold find_body_v. cbn [fst]. destruct key as [|c0 key].
    { destruct (n_compare NO _ x []) as [[]| | | |]; reflexivity. }
    destruct (n_compare NO _ x (c0 :: key)) as [[[p|] mt]| | | |]; try reflexivity. cbn [bind]. cbv zeta.
    rewrite find_steps_same. destruct (find_steps_v TO _ _ x mt) as [[[[y mt']|] s]| | | |]; try reflexivity. cbn [bind fst].
    destruct (deref _) as [ch| | | |]; try reflexivity. cbn [bind].
    destruct (vget _ ch) as [code| | | |]; try reflexivity. cbn [bind].
    destruct (code =? 255); [reflexivity|]. destruct (make_symb dbg _ ch mt') as [symb| | | |]; try reflexivity. cbn [bind].
    destruct (t_find_child TO _ y symb) as [z| | | |]; try reflexivity. cbn [bind]. destruct (z =? nil_id); reflexivity.
  Qed.
  Lemma update_steps_same lam t n x mt : update_steps TO NO lam t n x mt =
    let* r := update_steps_v TO NO lam t n x mt in Ret (fst r).
  Proof.
    unfold update_steps, update_steps_v. change (x, mt, t, n) with ((fun s : N * N * tT TO * nT NO * N => fst s) (x, mt, t, n, 0)).
    apply (loop_sim _ _ (fun s : N * N * tT TO * nT NO * N => fst s) (fun r : N * N * tT TO * nT NO * N => fst r)).
    intros [[[[y m] t1] n1] s]. cbn [fst].
    destruct (lam <=? m); [|reflexivity]. destruct (add_step TO NO y t1 n1) as [[[z t2] n2]| | | |]; reflexivity.
  Qed.
  Lemma update_same (m : map_st) k : map_update dbg TO NO m k = let* r := map_update_v dbg TO NO m k in Ret (fst r).
  Proof.
    unfold map_update, map_update_v. destruct (check_key k) as [[]| | | |]; try reflexivity. cbn [bind].
    destruct (t_size TO _ =? 0).
    - destruct (if negb (m_ready TO NO m) then map_new TO NO 0 32 else Ret m) as [m1| | | |]; try reflexivity. cbn [bind].
      destruct (add_first TO NO k _ _) as [[[p t] n]| | | |]; reflexivity.
    - destruct (t_get_root TO _) as [root| | | |]; try reflexivity. cbn [bind].
      change (m, root, k) with ((fun s : map_st * N * list N * visits => fst s) (m, root, k, mkVisits 0 0 0)).
      apply (loop_sim (update_body_v dbg TO NO) _ (fun s : map_st * N * list N * visits => fst s)
        (fun r : update_result * map_st * visits => fst r)).
      intros [[[m1 x] key] v]. unfold update_body, update_body_v. cbn [fst]. destruct key as [|c0 key].
      { destruct (n_compare NO _ x []) as [[]| | | |]; reflexivity. }
      destruct (n_compare NO _ x (c0 :: key)) as [[[p|] mt]| | | |]; try reflexivity. cbn [bind]. cbv zeta.
      rewrite update_steps_same. destruct (update_steps_v TO NO _ _ _ x mt) as [[[[[y mt'] t] n] s]| | | |]; try reflexivity. cbn [bind fst].
      destruct (deref _) as [ch| | | |]; try reflexivity. cbn [bind].
      destruct (vget _ ch) as [code| | | |]; try reflexivity. cbn [bind].
      match goal with |- context [bind (if ?b then ?u else ?v) _] => destruct (if b then u else v) as [[[codes nc] th]| | | |]; try reflexivity end.
      cbn [bind]. destruct th; [reflexivity|].
      destruct (make_symb dbg codes ch mt') as [symb| | | |]; try reflexivity. cbn [bind].
      destruct (add_leaf TO NO y symb _ t n) as [[[[[p|] z] t2] n2]| | | |]; reflexivity.
  Qed.

  (** ** How large they get *)
  Lemma sub64_le a b : b <= a -> a < 2 ^ 64 -> sub64 a b = a - b.
  Proof.
    intros H1 H2. unfold sub64, UINT64_MAX. rewrite w64_mod. change (18446744073709551615 + 1) with (2 ^ 64).
    replace (a + (2 ^ 64 - b)) with ((a - b) + 1 * 2 ^ 64) by lia.
    rewrite N.mod_add by discriminate. apply N.mod_small. lia.
  Qed.
  Lemma find_steps_cost lam t x mt r s : mt < 2 ^ 64 -> find_steps_v TO lam t x mt = Ret (r, s) -> lam * s <= mt.
  Proof.
    intros Hmt. unfold find_steps_v. intros H.
    apply (loop_ret _ (fun '(_, mt', s) => lam * s + mt' <= mt) (fun '(_, s) => lam * s <= mt)) in H; [exact H|lia|].
    intros [[y m] c] Hi. destruct (N.leb_spec lam m) as [Hle|Hlt]; [|lia].
    destruct (t_find_child TO t y step_symb) as [z| | | |]; cbn [bind]; try exact I. destruct (z =? nil_id); [lia|].
    rewrite sub64_le by lia. lia.
  Qed.
  Lemma update_steps_cost lam t n x mt y mt' t' n' s : mt < 2 ^ 64 ->
    update_steps_v TO NO lam t n x mt = Ret (y, mt', t', n', s) -> lam * s <= mt.
  Proof.
    intros Hmt. unfold update_steps_v. intros H.
    apply (loop_ret _ (fun '(_, mt', _, _, s) => lam * s + mt' <= mt) (fun '(_, _, _, _, s) => lam * s <= mt)) in H; [exact H|lia|].
    intros [[[[z m] t1] n1] c] Hi. destruct (N.leb_spec lam m) as [Hle|Hlt]; [|lia].
    destruct (add_step TO NO z t1 n1) as [[[? ?] ?]| | | |]; cbn [bind]; try exact I.
    rewrite sub64_le by lia. lia.
  Qed.
  Lemma deref_advance key mt c : deref (advance key mt) = Ret c ->
    N.of_nat (length (advance (advance key mt) 1)) + mt + 1 = N.of_nat (length key).
  Proof.
    unfold deref, advance. destruct (drop (N.to_nat mt) key) as [|x r] eqn:E; [discriminate|]. intros _.
    assert (E' := f_equal length E). rewrite skipn_length in E'. cbn [length] in E'. change (N.to_nat 1) with 1%nat.
    change (skipn 1 (x :: r)) with r. lia.
  Qed.
  (** Every byte of the key is consumed by at most one edge, or it is one of lambda bytes of a step. *)
  Definition within (lam : N) (k key : list N) (v : visits) : Prop :=
    lam * v_steps v + v_edges v + N.of_nat (length key) <= N.of_nat (length k).
  Definition bounded (lam : N) (k : list N) (v : visits) : Prop :=
    v_edges v <= v_labels v <= v_edges v + 1 /\ lam * v_steps v + v_edges v <= N.of_nat (length k).

  Lemma find_cost m k r v : N.of_nat (length k) < 2 ^ 64 -> map_find_v dbg TO NO m k = Ret (r, v) ->
    bounded (m_lambda _ _ m) k v.
  Proof.
    intros Hlen. unfold map_find_v. intros H. apply bind_inv in H as (u0 & _ & H). destruct (_ || _).
    { injection H as _ <-. split; cbn; lia. }
    apply bind_inv in H as (root & _ & H). set (lam := m_lambda _ _ m).
    apply (loop_ret _ (fun '(_, key, v) => v_labels v = v_edges v /\ within lam k key v) (fun '(_, v) => bounded lam k v)) in H;
      [exact H|split; unfold within; cbn; lia|].
    intros [[x key] c] [Hi1 Hi2]. unfold find_body_v. fold lam. unfold within, bounded in *.
    destruct key as [|c0 key].
    { destruct (n_compare NO _ x []) as [[]| | | |]; cbn [bind]; try exact I. cbn [v_labels v_edges v_steps length] in *. lia. }
    set (key' := c0 :: key) in *. destruct (n_compare NO _ x key') as [[[p|] mt]| | | |] eqn:Ec; cbn [bind]; try exact I.
    { cbn [v_labels v_edges v_steps]. lia. }
    apply HC in Ec. cbv zeta.
    destruct (find_steps_v TO lam _ x mt) as [[s' s]| | | |] eqn:Es; cbn [bind fst snd]; try exact I.
    apply find_steps_cost in Es; [|lia]. destruct s' as [[y mt']|]; [|cbn [v_labels v_edges v_steps]; lia].
    destruct (deref (advance key' mt)) as [ch| | | |] eqn:Ed; cbn [bind]; try exact I. apply deref_advance in Ed.
    destruct (vget _ ch) as [code| | | |]; cbn [bind]; try exact I.
    destruct (code =? 255); [cbn [v_labels v_edges v_steps]; lia|].
    destruct (make_symb dbg _ ch mt') as [symb| | | |]; cbn [bind]; try exact I.
    destruct (t_find_child TO _ y symb) as [z| | | |]; cbn [bind]; try exact I.
    destruct (z =? nil_id); cbn [v_labels v_edges v_steps]; lia.
  Qed.
  Lemma update_cost m k r m' v : N.of_nat (length k) < 2 ^ 64 -> map_update_v dbg TO NO m k = Ret (r, m', v) ->
    bounded (m_lambda _ _ m) k v.
  Proof.
    intros Hlen. unfold map_update_v. intros H. apply bind_inv in H as (u0 & _ & H). destruct (t_size TO _ =? 0).
    { apply bind_inv in H as (m1 & _ & H). apply bind_inv in H as ([[p t] n] & _ & H). injection H as _ _ <-. split; cbn; lia. }
    apply bind_inv in H as (root & _ & H). set (lam := m_lambda _ _ m).
    apply (loop_ret _ (fun '(m1, _, key, v) => m_lambda _ _ m1 = lam /\ v_labels v = v_edges v /\ within lam k key v)
      (fun '(_, _, v) => bounded lam k v)) in H; [exact H|split; [reflexivity|split; unfold within; cbn; lia]|].
    intros [[[m1 x] key] c] (El & Hi1 & Hi2). unfold update_body_v. rewrite El. unfold within, bounded in *.
    destruct key as [|c0 key].
    { destruct (n_compare NO _ x []) as [[]| | | |]; cbn [bind]; try exact I. cbn [v_labels v_edges v_steps length] in *. lia. }
    set (key' := c0 :: key) in *. destruct (n_compare NO _ x key') as [[[p|] mt]| | | |] eqn:Ec; cbn [bind]; try exact I.
    { cbn [v_labels v_edges v_steps]. lia. }
    apply HC in Ec. cbv zeta.
    destruct (update_steps_v TO NO lam _ _ x mt) as [[[[[y mt'] t] n] s]| | | |] eqn:Es; cbn [bind fst snd]; try exact I.
    apply update_steps_cost in Es; [|lia].
    destruct (deref (advance key' mt)) as [ch| | | |] eqn:Ed; cbn [bind]; try exact I. apply deref_advance in Ed.
    destruct (vget _ ch) as [code| | | |]; cbn [bind]; try exact I.
    match goal with |- context [bind (if ?b then ?u else ?v) _] => destruct (if b then u else v) as [[[codes nc] th]| | | |] end;
      cbn [bind]; try exact I.
    destruct th; [cbn [v_labels v_edges v_steps]; lia|].
    destruct (make_symb dbg codes ch mt') as [symb| | | |]; cbn [bind]; try exact I.
    destruct (add_leaf TO NO y symb _ t n) as [[[[[p|] z] t2] n2]| | | |]; cbn [bind]; try exact I; cbn [v_labels v_edges v_steps m_lambda];
      [lia|]. split; [reflexivity|]. lia.
  Qed.
End visits.
