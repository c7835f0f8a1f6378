(** The counters of POPLAR_EXTRA_STATS. *)
From Verif.Model Require Export Stats.
From Verif.Proofs Require Export OomP OwnP LengthP.
From Verif.Props Require Import ShareSpec.
Local Open Scope N_scope.

(** ** The counters change nothing *)
Section erase.
  Context (dbg : bool) (TO : trie_ops) (NO : nlm_ops) (full : tT TO -> bool).
  Notation TS := (resize_ops TO full).
  Definition er (m : map_st TS NO) : map_st TO NO :=
    mkMap TO NO (m_ready _ _ m) (m_lambda _ _ m) (fst (m_trie _ _ m)) (m_nlm _ _ m) (m_codes _ _ m) (m_num_codes _ _ m) (m_size _ _ m).
  Definition ers (s : stats_map TS NO) : map_st TO NO := er (sm_map _ _ s).

  Lemma er_new cb lam : map_new TO NO cb lam = let* s := stats_new TS NO cb lam in Ret (ers s).
  Proof.
    unfold stats_new, map_new. destruct (throw_if _ _) as [[]| | | |]; try reflexivity. cbn [bind].
    destruct (ceil_log2 lam) as [cl| | | |]; try reflexivity. cbn [bind resize_ops t_new].
    destruct (t_new TO cb (8 + cl)) as [t| | | |]; try reflexivity. cbn [bind t_capa fst].
    destruct (n_new NO _) as [n| | | |]; reflexivity.
  Qed.
  Lemma er_find m k : map_find dbg TS NO m k = map_find dbg TO NO (er m) k.
  Proof. reflexivity. Qed.
  Lemma er_expand x (t : tT TS) n : expand_if_needed TO NO x (fst t) n =
    let* r := expand_if_needed TS NO x t n in let '(x, t, n) := r in Ret (x, fst t, n).
  Proof.
    unfold expand_if_needed. change (t_kind TS) with (t_kind TO). destruct (t_kind TO); [|reflexivity].
    cbn [resize_ops t_needs_to_expand t_expand]. destruct (negb _); [reflexivity|].
    destruct (t_expand TO (fst t)) as [[nm t']| | | |]; try reflexivity. cbn [bind].
    destruct (nm_get nm x) as [y| | | |]; try reflexivity. cbn [bind].
    destruct (n_expand NO n nm) as [n'| | | |]; reflexivity.
  Qed.
  Lemma er_step x (t : tT TS) n c : add_step TO NO x (fst t) n =
    let* r := stats_add_step TS NO x t n c in let '(x, t, n, _) := r in Ret (x, fst t, n).
  Proof.
    unfold add_step, stats_add_step. cbn [resize_ops t_add_child]. change (t_kind TS) with (t_kind TO).
    destruct (t_add_child TO (fst t) x step_symb) as [[[a y] t']| | | |]; try reflexivity. cbn [bind].
    destruct a; [|reflexivity].
    match goal with |- context [expand_if_needed _ NO y ?t1 n] => pose proof (er_expand y t1 n) as E end.
    cbn [fst] in E. rewrite E. clear E.
    destruct (expand_if_needed _ NO y _ n) as [[[y2 t2] n2]| | | |]; try reflexivity. cbn [bind].
    destruct (t_kind TO); [reflexivity|].
    destruct (assert_ _) as [[]| | | |]; try reflexivity. cbn [bind].
    destruct (n_append_dummy NO n2) as [n3| | | |]; reflexivity.
  Qed.
  Definition erw (st : N * N * tT TS * nT NO * N) : N * N * tT TO * nT NO := let '(x, mt, t, n, _) := st in (x, mt, fst t, n).
  Lemma er_steps lam (t : tT TS) n x mt c : update_steps TO NO lam (fst t) n x mt =
    let* r := stats_update_steps TS NO lam t n x mt c in Ret (erw r).
  Proof.
    unfold update_steps, stats_update_steps.
    change (x, mt, fst t, n) with (erw (x, mt, t, n, c)).
    apply (loop_sim (fun st : N * N * tT TS * nT NO * N => _) (fun st : N * N * tT TO * nT NO => _) erw erw).
    intros [[[[y m] t1] n1] c1]. unfold erw at 1. destruct (lam <=? m); [|reflexivity].
    rewrite (er_step y t1 n1 c1). destruct (stats_add_step _ _ _ _ _ _) as [[[[? ?] ?] ?]| | | |]; reflexivity.
  Qed.
  Lemma er_leaf x s k (t : tT TS) n : add_leaf TO NO x s k (fst t) n =
    let* r := add_leaf TS NO x s k t n in let '(o, x, t, n) := r in Ret (o, x, fst t, n).
  Proof.
    unfold add_leaf. cbn [resize_ops t_add_child]. change (t_kind TS) with (t_kind TO).
    destruct (t_add_child TO (fst t) x s) as [[[a y] t']| | | |]; try reflexivity. cbn [bind].
    destruct a; [|reflexivity].
    match goal with |- context [expand_if_needed _ NO y (?t1, ?t2) n] => pose proof (er_expand y (t1, t2) n) as E end.
    cbn [fst] in E. rewrite E. clear E.
    destruct (expand_if_needed _ NO y _ n) as [[[y2 t2] n2]| | | |]; try reflexivity. cbn [bind].
    destruct (t_kind TO).
    - destruct (n_insert NO n2 y2 k) as [[? ?]| | | |]; reflexivity.
    - destruct (assert_ _) as [[]| | | |]; try reflexivity. cbn [bind].
      destruct (n_append NO n2 k) as [[? ?]| | | |]; reflexivity.
  Qed.
  Lemma er_first k (t : tT TS) n : add_first TO NO k (fst t) n =
    let* r := add_first TS NO k t n in let '(p, t, n) := r in Ret (p, fst t, n).
  Proof.
    unfold add_first. cbn [resize_ops t_add_root t_get_root]. change (t_kind TS) with (t_kind TO).
    destruct (t_add_root TO (fst t)) as [t'| | | |]; try reflexivity. cbn [bind fst].
    destruct (t_kind TO).
    - destruct (t_get_root TO t') as [r| | | |]; try reflexivity. cbn [bind].
      destruct (n_insert NO n r k) as [[? ?]| | | |]; reflexivity.
    - destruct (n_append NO n k) as [[? ?]| | | |]; reflexivity.
  Qed.
  Definition ersr (r : update_result * stats_map TS NO) : update_result * map_st TO NO := (fst r, ers (snd r)).
  Definition erst (st : map_st TS NO * N * N * list N) : map_st TO NO * N * list N :=
    let '(m, _, x, k) := st in (er m, x, k).
  Lemma er_body st : update_body dbg TO NO (erst st) =
    let* r := stats_update_body dbg TS NO st in Ret (match r with inl st => inl (erst st) | inr r => inr (ersr r) end).
  Proof.
    destruct st as [[[m c] x] k]. unfold stats_update_body, update_body, erst. cbn [er m_nlm m_lambda m_codes m_num_codes m_trie m_size m_ready].
    destruct k as [|c0 k].
    { destruct (n_compare NO _ x []) as [[]| | | |]; reflexivity. }
    destruct (n_compare NO _ x (c0 :: k)) as [[[p|] mt]| | | |]; try reflexivity. cbn [bind]. cbv zeta.
    rewrite (er_steps _ _ _ x mt c).
    destruct (stats_update_steps TS NO _ _ _ x mt c) as [[[[[y mt'] t] n] c']| | | |]; try reflexivity. cbn [bind].
    destruct (deref _) as [ch| | | |]; try reflexivity. cbn [bind].
    destruct (vget _ ch) as [code| | | |]; try reflexivity. cbn [bind].
    match goal with |- context [bind (if ?b then ?u else ?v) _] => destruct (if b then u else v) as [[[codes nc] th]| | | |]; try reflexivity end.
    cbn [bind erw]. destruct th; [reflexivity|].
    destruct (make_symb dbg codes ch mt') as [symb| | | |]; try reflexivity. cbn [bind].
    rewrite (er_leaf y symb _ t n).
    destruct (add_leaf TS NO y symb _ t n) as [[[[[p|] z] t2] n2]| | | |]; reflexivity.
  Qed.
  Lemma er_update s k : map_update dbg TO NO (ers s) k = let* r := stats_update dbg TS NO s k in Ret (ersr r).
  Proof.
    unfold map_update, stats_update. destruct (check_key k) as [[]| | | |]; try reflexivity. cbn [bind].
    change (t_size TO (m_trie _ _ (ers s))) with (t_size TS (m_trie _ _ (sm_map _ _ s))).
    destruct (t_size TS _ =? 0).
    - assert (E : (if negb (m_ready TO NO (ers s)) then map_new TO NO 0 32 else Ret (ers s)) =
        let* s := (if negb (m_ready TS NO (sm_map _ _ s)) then stats_new TS NO 0 32 else Ret s) in Ret (ers s)).
      { change (m_ready TO NO (ers s)) with (m_ready TS NO (sm_map _ _ s)). destruct (negb _); [apply er_new|reflexivity]. }
      rewrite E. clear E. destruct (if negb (m_ready TS NO (sm_map TS NO s)) then stats_new TS NO 0 32 else Ret s) as [s1| | | |]; try reflexivity.
      cbn [bind]. cbv zeta. cbn [ers er m_nlm m_lambda m_codes m_num_codes m_trie m_size m_ready].
      rewrite (er_first k (m_trie _ _ (sm_map _ _ s1))).
      destruct (add_first TS NO k _ _) as [[[p t] n]| | | |]; reflexivity.
    - change (t_get_root TO (m_trie TO NO (ers s))) with (t_get_root TS (m_trie _ _ (sm_map _ _ s))).
      destruct (t_get_root TS _) as [root| | | |]; try reflexivity. cbn [bind].
      change (ers s, root, k) with (erst (sm_map _ _ s, sm_steps _ _ s, root, k)).
      apply (loop_sim (stats_update_body dbg TS NO) (update_body dbg TO NO) erst ersr). apply er_body.
  Qed.
  Lemma er_run ops : forall s, api_run dbg TO NO (ers s) ops = let* r := stats_run dbg TS NO s ops in Ret (fst r, ers (snd r)).
  Proof.
    induction ops as [|o ops IH]; intros s; [reflexivity|]. cbn [api_run stats_run].
    assert (E : api_step dbg TO NO (ers s) o = let* r := stats_step dbg TS NO s o in Ret (fst r, ers (snd r))).
    { destruct o as [k w|k]; unfold api_step, stats_step.
      - rewrite er_update. destruct (stats_update dbg TS NO s k) as [[[[p|]|x] s1]| | | |]; try reflexivity. cbn [bind ersr fst snd].
        change (map_read TO NO (ers s1) p) with (map_read TS NO (sm_map _ _ s1) p).
        destruct (map_read TS NO _ p) as [v| | | |]; try reflexivity. cbn [bind]. destruct w as [w|]; [|reflexivity].
        unfold map_write. change (n_heap NO (m_nlm TO NO (ers s1))) with (n_heap NO (m_nlm TS NO (sm_map _ _ s1))).
        destruct (hp_write _ p w) as [h| | | |]; reflexivity.
      - change (map_find dbg TO NO (ers s) k) with (map_find dbg TS NO (sm_map _ _ s) k).
        destruct (map_find dbg TS NO _ k) as [[p|]| | | |]; try reflexivity. cbn [bind].
        change (map_read TO NO (ers s) p) with (map_read TS NO (sm_map _ _ s) p).
        destruct (map_read TS NO _ p) as [v| | | |]; reflexivity. }
    rewrite E. destruct (stats_step dbg TS NO s o) as [[x s1]| | | |]; try reflexivity. cbn [bind fst snd].
    rewrite IH. destruct (stats_run dbg TS NO s1 ops) as [[xs s2]| | | |]; reflexivity.
  Qed.
End erase.

(** ** num_resize_ and the capacity: an invariant of all runs that return *)
Section kept.
  Context (dbg : bool) (TS : trie_ops) (NO : nlm_ops) (J0 J : tT TS -> Prop).
  (** [J0] holds of the tries without nodes, [J] of the others. *)
  Record kept : Prop := {
    kp_zero : forall t, J t -> t_size TS t = 0 -> J0 t;
    kp_root : forall t t', J0 t -> t_add_root TS t = Ret t' -> J t';
    kp_child : forall t x s a y t', J t -> t_add_child TS t x s = Ret (a, y, t') -> J t';
    kp_expand : forall t nm t', J t -> t_expand TS t = Ret (nm, t') -> J t' }.
  Hypothesis HK : kept.

  Lemma kept_if_needed x t n y t' n' : J t -> expand_if_needed TS NO x t n = Ret (y, t', n') -> J t'.
  Proof.
    unfold expand_if_needed. intros Ht H. destruct (t_kind TS); [|injection H as <- <- <-; exact Ht].
    destruct (negb _); [injection H as <- <- <-; exact Ht|].
    apply bind_inv in H as ([nm t1] & E & H). apply bind_inv in H as (y1 & _ & H). apply bind_inv in H as (n1 & _ & H).
    injection H as <- <- <-. apply (kp_expand HK _ _ _ Ht E).
  Qed.
  Lemma kept_step x t n c y t' n' c' : J t -> stats_add_step TS NO x t n c = Ret (y, t', n', c') -> J t'.
  Proof.
    unfold stats_add_step. intros Ht H. apply bind_inv in H as ([[a y1] t1] & E & H).
    pose proof (kp_child HK _ _ _ _ _ _ Ht E) as H1. destruct a; [|injection H as <- <- <- <-; exact H1].
    apply bind_inv in H as ([[y2 t2] n2] & E2 & H). pose proof (kept_if_needed _ _ _ _ _ _ H1 E2) as H2. cbv zeta in H.
    destruct (t_kind TS); [injection H as <- <- <- <-; exact H2|].
    apply bind_inv in H as ([] & _ & H). apply bind_inv in H as (n3 & _ & H). injection H as <- <- <- <-. exact H2.
  Qed.
  Lemma kept_steps lam t n x mt c y mt' t' n' c' : J t ->
    stats_update_steps TS NO lam t n x mt c = Ret (y, mt', t', n', c') -> J t'.
  Proof.
    intros Ht H. unfold stats_update_steps in H.
    apply (loop_ret _ (fun '(_, _, t, _, _) => J t) (fun '(_, _, t, _, _) => J t)) in H; [exact H|exact Ht|].
    intros [[[[y1 m1] t1] n1] c1] H1. destruct (lam <=? m1); [|exact H1].
    destruct (stats_add_step TS NO y1 t1 n1 c1) as [[[[y2 t2] n2] c2]| | | |] eqn:E; cbn [bind]; try exact I.
    apply (kept_step _ _ _ _ _ _ _ _ H1 E).
  Qed.
  Lemma kept_leaf x s k t n o y t' n' : J t -> add_leaf TS NO x s k t n = Ret (o, y, t', n') -> J t'.
  Proof.
    unfold add_leaf. intros Ht H. apply bind_inv in H as ([[a y1] t1] & E & H).
    pose proof (kp_child HK _ _ _ _ _ _ Ht E) as H1. destruct a; [|injection H as <- <- <- <-; exact H1].
    apply bind_inv in H as ([[y2 t2] n2] & E2 & H). pose proof (kept_if_needed _ _ _ _ _ _ H1 E2) as H2.
    destruct (t_kind TS).
    - apply bind_inv in H as ([p n3] & _ & H). injection H as <- <- <- <-. exact H2.
    - apply bind_inv in H as ([] & _ & H). apply bind_inv in H as ([p n3] & _ & H). injection H as <- <- <- <-. exact H2.
  Qed.
  Lemma kept_first k t n p t' n' : J0 t -> add_first TS NO k t n = Ret (p, t', n') -> J t'.
  Proof.
    unfold add_first. intros Ht H. apply bind_inv in H as (t1 & E & H). pose proof (kp_root HK _ _ Ht E) as H1.
    destruct (t_kind TS).
    - apply bind_inv in H as (r & _ & H). apply bind_inv in H as ([q n3] & _ & H). injection H as <- <- <-. exact H1.
    - apply bind_inv in H as ([q n3] & _ & H). injection H as <- <- <-. exact H1.
  Qed.

  (** [fresh]: whether the map may still be the default-constructed one, which the first insertion replaces. *)
  Context (fresh : Prop) (Hnew : fresh -> forall sb t, t_new TS 0 sb = Ret t -> J0 t).
  Definition kany (t : tT TS) : Prop := if t_size TS t =? 0 then J0 t else J t.
  Lemma kany_J t : J t -> kany t.
  Proof. intros H. unfold kany. destruct (N.eqb_spec (t_size TS t) 0) as [E|_]; [apply (kp_zero HK t H E)|exact H]. Qed.
  Definition kinv (m : map_st TS NO) : Prop := if m_ready _ _ m then kany (m_trie _ _ m) else fresh.
  (** A map that is not ready has an empty trie. *)
  Definition kinv0 (m : map_st TS NO) : Prop := kinv m /\ (m_ready _ _ m = false -> t_size TS (m_trie _ _ m) = 0).

  Lemma new_ready cb lam m : map_new TS NO cb lam = Ret m -> m_ready _ _ m = true /\ exists sb, t_new TS cb sb = Ret (m_trie _ _ m).
  Proof.
    unfold map_new. intros H. apply bind_inv in H as ([] & _ & H). apply bind_inv in H as (cl & _ & H).
    apply bind_inv in H as (t & E & H). apply bind_inv in H as (n & _ & H). apply bind_inv in H as (c & _ & H).
    injection H as <-. cbn. eauto.
  Qed.
  Lemma kept_body m c x k : m_ready _ _ m = true -> J (m_trie _ _ m) ->
    match stats_update_body dbg TS NO (m, c, x, k) with
    | Ret (inl (m', _, _, _)) => m_ready _ _ m' = true /\ J (m_trie _ _ m')
    | Ret (inr (_, s)) => m_ready _ _ (sm_map _ _ s) = true /\ J (m_trie _ _ (sm_map _ _ s))
    | _ => True
    end.
  Proof.
    intros Hr Hm. destruct (stats_update_body dbg TS NO (m, c, x, k)) as [r| | | |] eqn:H; try exact I.
    unfold stats_update_body in H. destruct k as [|c0 k].
    { apply bind_inv in H as (q & _ & H). injection H as <-. auto. }
    apply bind_inv in H as ([[p|] mt] & _ & H). { injection H as <-. auto. }
    cbv zeta in H. apply bind_inv in H as ([[[[y mt'] t] n] c'] & E & H).
    pose proof (kept_steps _ _ _ _ _ _ _ _ _ _ _ Hm E) as H1. clear E.
    apply bind_inv in H as (ch & _ & H). apply bind_inv in H as (code & _ & H).
    apply bind_inv in H as ([[codes nc] th] & _ & H). destruct th. { injection H as <-. auto. }
    apply bind_inv in H as (symb & _ & H). apply bind_inv in H as ([[[o z] t2] n2] & E2 & H).
    pose proof (kept_leaf _ _ _ _ _ _ _ _ _ H1 E2) as H2. destruct o; injection H as <-; auto.
  Qed.
  Lemma kept_update s k r s' : kinv0 (sm_map _ _ s) -> stats_update dbg TS NO s k = Ret (r, s') ->
    m_ready _ _ (sm_map _ _ s') = true /\ J (m_trie _ _ (sm_map _ _ s')).
  Proof.
    intros [Hm Hz] H. unfold stats_update in H. apply bind_inv in H as ([] & _ & H).
    destruct (t_size TS _ =? 0) eqn:Es.
    - apply bind_inv in H as (s1 & E & H). cbv zeta in H. apply bind_inv in H as ([[p t] n] & E1 & H). injection H as <- <-.
      cbn [sm_map m_ready m_trie]. unfold kinv in Hm. destruct (m_ready TS NO (sm_map TS NO s)) eqn:Er; cbn [negb] in E.
      + injection E as <-. split; [exact Er|]. unfold kany in Hm. rewrite Es in Hm. apply (kept_first _ _ _ _ _ _ Hm E1).
      + unfold stats_new in E. apply bind_inv in E as (m1 & E & H). injection H as <-. cbn [sm_map] in *.
        destruct (new_ready _ _ _ E) as [Hr (sb & Hn)]. split; [exact Hr|]. apply (kept_first _ _ _ _ _ _ (Hnew Hm sb _ Hn) E1).
    - assert (Hr : m_ready TS NO (sm_map TS NO s) = true).
      { destruct (m_ready TS NO (sm_map TS NO s)) eqn:Er; [reflexivity|]. rewrite (Hz eq_refl) in Es. discriminate. }
      unfold kinv, kany in Hm. rewrite Hr, Es in Hm. apply bind_inv in H as (root & _ & H).
      apply (loop_ret _ (fun '(m, _, _, _) => m_ready _ _ m = true /\ J (m_trie _ _ m))
        (fun '(_, s) => m_ready _ _ (sm_map _ _ s) = true /\ J (m_trie _ _ (sm_map _ _ s)))) in H; [exact H|auto|].
      intros [[[m c] x] k1] [H1 H2]. apply (kept_body m c x k1 H1 H2).
  Qed.
  Lemma kept_run ops : forall s xs s', kinv0 (sm_map _ _ s) -> stats_run dbg TS NO s ops = Ret (xs, s') -> kinv0 (sm_map _ _ s').
  Proof.
    induction ops as [|o ops IH]; intros s xs s' Hs H; [injection H as <- <-; exact Hs|]. cbn [stats_run] in H.
    apply bind_inv in H as ([x s1] & E & H). apply bind_inv in H as ([ys s2] & E2 & H). injection H as <- <-.
    apply (IH s1 ys s2); [|exact E2]. clear E2 IH. destruct o as [k w|k]; unfold stats_step in E.
    - apply bind_inv in E as ([[[p|]|ex] s3] & E & H); try discriminate.
      destruct (kept_update _ _ _ _ Hs E) as [Hr HJ].
      apply bind_inv in H as (v & _ & H). apply bind_inv in H as (m & Em & H). injection H as <- <-. cbn [sm_map].
      assert (Hx : m_ready _ _ m = true /\ J (m_trie _ _ m)).
      { destruct w as [w|]; [|injection Em as <-; auto]. unfold map_write in Em. apply bind_inv in Em as (h & _ & Em).
        injection Em as <-. auto. }
      destruct Hx as [H1 H2]. split; [unfold kinv; rewrite H1; apply kany_J, H2|congruence].
    - apply bind_inv in E as ([p|] & E & H); [apply bind_inv in H as (v & _ & H)|]; injection H as <- <-; exact Hs.
  Qed.
  Lemma run_ready ops : forall s xs s', kinv0 (sm_map _ _ s) -> stats_run dbg TS NO s ops = Ret (xs, s') ->
    m_ready _ _ (sm_map _ _ s) = true \/ updated ops <> [] -> m_ready _ _ (sm_map _ _ s') = true.
  Proof.
    induction ops as [|o ops IH]; intros s xs s' Hs H Hor.
    { injection H as <- <-. destruct Hor as [H|H]; [exact H|destruct (H eq_refl)]. }
    pose proof H as H0. cbn [stats_run] in H.
    apply bind_inv in H as ([x s1] & E & H). apply bind_inv in H as ([ys s2] & E2 & H). injection H as <- <-.
    assert (Hs1 : kinv0 (sm_map _ _ s1)).
    { apply (kept_run [o] s [x] s1 Hs). cbn [stats_run]. rewrite E. reflexivity. }
    apply (IH s1 ys s2 Hs1 E2). clear E2 IH H0. destruct o as [k w|k]; unfold stats_step in E.
    - left. apply bind_inv in E as ([[[p|]|ex] s3] & E & H); try discriminate.
      destruct (kept_update _ _ _ _ Hs E) as [Hr HJ].
      apply bind_inv in H as (v & _ & H). apply bind_inv in H as (m & Em & H). injection H as <- <-. cbn [sm_map].
      destruct w as [w|]; [|injection Em as <-; exact Hr]. unfold map_write in Em. apply bind_inv in Em as (h & _ & Em).
      injection Em as <-. exact Hr.
    - apply bind_inv in E as ([p|] & E & H); [apply bind_inv in H as (v & _ & H)|]; injection H as <- <-; exact Hor.
  Qed.
End kept.

(** *** The capacity of the four tries *)
Section capacity.
  Context (TO : trie_ops) (full : tT TO -> bool).
  Definition capb (b : N) (t : tT TO) : Prop := 16 <= b /\ p2_new b = Ret (t_capa TO t).
  Record cap_ok : Prop := {
    ck_new : forall cb sb t, t_new TO cb sb = Ret t -> capb (N.max 16 cb) t;
    ck_root : forall b t t', capb b t -> t_add_root TO t = Ret t' -> capb b t';
    ck_child : forall b t x s a y t', capb b t -> t_add_child TO t x s = Ret (a, y, t') ->
      capb (if full t then b + 1 else b) t';
    ck_expand : forall b t nm t', capb b t -> t_expand TO t = Ret (nm, t') -> capb (b + 1) t' }.
  Lemma capb_lt b t : capb b t -> b < 64.
  Proof. intros [_ H]. unfold p2_new in H. destruct (N.ltb_spec b 64); [assumption|discriminate]. Qed.
  Lemma capb_size b t : capb b t -> p2_size (t_capa TO t) = 2 ^ b.
  Proof.
    intros H. pose proof (capb_lt b t H) as Hb. destruct H as [_ H]. rewrite (p2_new_eq b Hb) in H. injection H as <-.
    unfold p2_size. cbn [p2_mask]. unfold add64. rewrite w64_mod, N.ones_equiv.
    pose proof (N.pow_nonzero 2 b ltac:(discriminate)) as H0.
    pose proof (N.pow_lt_mono_r 2 b 64 ltac:(reflexivity) Hb) as H1.
    replace (N.pred (2 ^ b) + 1) with (2 ^ b) by lia. apply N.mod_small. exact H1.
  Qed.
  Lemma capb_bits b t : capb b t -> p2_bits (t_capa TO t) = b.
  Proof.
    intros H. pose proof (capb_lt b t H) as Hb. destruct H as [_ H]. rewrite (p2_new_eq b Hb) in H. injection H as <-. reflexivity.
  Qed.
  Hypothesis HC : cap_ok.
  Notation TS := (resize_ops TO full).
  Definition capJ (b0 : N) (t : tT TS) : Prop := capb (b0 + snd t) (fst t).
  Lemma capJ_kept b0 : kept TS (capJ b0) (capJ b0).
  Proof.
    assert (Hadd : forall t : tT TS, capJ b0 t -> add64 (snd t) 1 = snd t + 1).
    { intros t H. unfold capJ in H. pose proof (capb_lt _ _ H) as Hl. unfold add64. rewrite w64_mod. apply N.mod_small.
      change (2 ^ 64) with 18446744073709551616. lia. }
    constructor.
    - intros t H _. exact H.
    - intros t t' H E. cbn [resize_ops t_add_root] in E. apply bind_inv in E as (t1 & E & H1). injection H1 as <-.
      apply (ck_root HC _ _ _ H E).
    - intros t x s a y t' H E. cbn [resize_ops t_add_child] in E. apply bind_inv in E as ([[a1 y1] t1] & E & H1). injection H1 as <- <- <-.
      pose proof (ck_child HC _ _ _ _ _ _ _ H E) as Hc. unfold capJ. cbn [fst snd].
      destruct (full (fst t)); [|exact Hc]. rewrite (Hadd t H), N.add_assoc. exact Hc.
    - intros t nm t' H E. cbn [resize_ops t_expand] in E. apply bind_inv in E as ([nm1 t1] & E & H1). injection H1 as <- <-.
      pose proof (ck_expand HC _ _ _ _ H E) as Hc. unfold capJ. cbn [fst snd]. rewrite (Hadd t H), N.add_assoc. exact Hc.
  Qed.
  Lemma capJ_new cb sb t : t_new TS cb sb = Ret t -> capJ (N.max 16 cb) t.
  Proof.
    intros E. cbn [resize_ops t_new] in E. apply bind_inv in E as (t1 & E & H). injection H as <-. unfold capJ. cbn [fst snd].
    rewrite N.add_0_r. apply (ck_new HC _ _ _ E).
  Qed.
End capacity.

Lemma replay_ret {T MS} (add : T -> N -> N -> outcome (bool * N * T)) (setm : MS -> N -> N -> outcome MS) (K : T -> Prop) :
  (forall t x s a y t', K t -> add t x s = Ret (a, y, t') -> K t') ->
  forall path x ms done t r, K t -> bonsai_replay add setm path x ms done t = Ret r -> K (snd r).
Proof.
  intros Hadd. induction path as [|[o l] path IH]; intros x ms done t r Ht H; cbn [bonsai_replay] in H; [injection H as <-; exact Ht|].
  apply bind_inv in H as ([[a y] t1] & E & H). apply bind_inv in H as (ms1 & _ & H). apply bind_inv in H as (d1 & _ & H).
  apply (IH _ _ _ _ _ (Hadd _ _ _ _ _ _ Ht E) H).
Qed.
Lemma remap_ret {T MS} start size (emp : MS -> N -> outcome bool) gp getm setm (add : T -> N -> N -> outcome (bool * N * T)) (K : T -> Prop) ms done t r :
  (forall t x s a y t', K t -> add t x s = Ret (a, y, t') -> K t') -> K t ->
  bonsai_remap start size emp gp getm setm add (ms, done, t) = Ret r -> K (snd r).
Proof.
  intros Hadd Ht H. unfold bonsai_remap in H.
  apply (for_range_ret _ _ _ _ _ (fun st : MS * bit_vector * T => K (snd st))) in H; [exact H|exact Ht|].
  intros i [[ms1 d1] t1] s' H1 E. apply bind_inv in E as (d & _ & E). destruct d; [injection E as <-; exact H1|].
  apply bind_inv in E as (e & _ & E). destruct e; [injection E as <-; exact H1|].
  apply bind_inv in E as ([path nd] & _ & E). apply bind_inv in E as (nn & _ & E).
  apply (replay_ret add setm K Hadd _ _ _ _ _ _ H1 E).
Qed.

Lemma p2_new_some b p : p2_new b = Ret p -> p2_bits p = b.
Proof. unfold p2_new. destruct (b <? 64); [|discriminate]. intros H. injection H as <-. reflexivity. Qed.
Lemma max16 b : 16 <= b -> N.max trie_min_capa_bits (b + 1) = b + 1.
Proof. unfold trie_min_capa_bits. lia. Qed.

(** plain_bonsai_trie *)
Lemma pb_cap (H : plain_hasher) mf : cap_ok (pb_ops mf) (fun _ => false).
Proof.
  assert (Hnew : forall cb sb t, pb_new mf cb sb = Ret t -> p2_new (N.max 16 cb) = Ret (pb_capa t)).
  { intros cb sb t E. unfold pb_new in E. apply bind_inv in E as (c & Ec & E). apply bind_inv in E as (s & _ & E).
    apply bind_inv in E as (v & _ & E). injection E as <-. exact Ec. }
  assert (Hroot : forall t t', pb_add_root t = Ret t' -> pb_capa t' = pb_capa t).
  { intros t t' E. unfold pb_add_root in E. apply bind_inv in E as ([] & _ & E). injection E as <-. reflexivity. }
  assert (Hchild : forall t x s a y t', pb_add_child t x s = Ret (a, y, t') -> pb_capa t' = pb_capa t).
  { intros t x s a y t' E. unfold pb_add_child in E. apply bind_inv in E as ([] & _ & E). apply bind_inv in E as ([] & _ & E).
    cbv zeta in E. apply bind_inv in E as ([] & _ & E).
    apply (loop_ret _ (fun _ => True) (fun '(_, _, t') => pb_capa t' = pb_capa t)) in E; [exact E|exact I|].
    clear E. intros i _. destruct (i =? 0); [exact I|]. destruct (pb_get_root t) as [root| | | |]; try exact I. cbn [bind].
    destruct (i =? root); [exact I|]. destruct (cv_get _ i) as [v| | | |]; try exact I. cbn [bind]. destruct (v =? 0).
    - destruct (_ =? _); [exact eq_refl|]. destruct (cv_set _ _ _) as [tb| | | |]; try exact I. exact eq_refl.
    - destruct (_ =? _); [exact eq_refl|exact I]. }
  constructor; cbn [pb_ops tT t_new t_add_root t_add_child t_expand t_capa]; unfold capb; cbn [t_capa pb_ops].
  - intros cb sb t E. split; [lia|]. apply (Hnew _ _ _ E).
  - intros b t t' [H1 H2] E. rewrite (Hroot _ _ E). auto.
  - intros b t x s a y t' [H1 H2] E. rewrite (Hchild _ _ _ _ _ _ E). auto.
  - intros b t nm t' [H1 H2] E. apply bind_inv in E as ([m t1] & E & Ee). injection Ee as _ <-. split; [lia|].
    unfold pb_expand in E. apply bind_inv in E as (nt & En & E). apply bind_inv in E as (nt2 & Er & E). cbv zeta in E.
    apply bind_inv in E as (root & _ & E). apply bind_inv in E as (d1 & _ & E). apply bind_inv in E as (nr & _ & E).
    apply bind_inv in E as (tb & _ & E). apply bind_inv in E as ([[tb2 d2] nt3] & Em & E). injection E as <- <-. cbn [snd].
    apply (remap_ret _ _ _ _ _ _ _ (fun t' => p2_new (b + 1) = Ret (pb_capa t'))) in Em; [exact Em| |].
    + intros t2 x s a y t3 H3 E3. rewrite (Hchild _ _ _ _ _ _ E3). exact H3.
    + rewrite (Hroot _ _ Er). rewrite <- (Hnew _ _ _ En), (p2_new_some _ _ H2). symmetry. f_equal. apply (max16 b H1).
Qed.

(** compact_bonsai_trie, compact_fkhash_trie *)
Lemma dt_new_cap (H : trie_hashers) P cb sb ch t : dt_new P cb sb ch = Ret t -> p2_new (N.max 16 cb) = Ret (dt_capa t).
Proof.
  intros E. unfold dt_new in E. apply bind_inv in E as (c & Ec & E). apply bind_inv in E as (s & _ & E).
  apply bind_inv in E as (h & _ & E). apply bind_inv in E as (v & _ & E). apply bind_inv in E as (a & _ & E). injection E as <-. exact Ec.
Qed.
Lemma dt_slot_cap (H : trie_hashers) P t i q d t' : dt_update_slot P t i q d = Ret t' -> dt_capa t' = dt_capa t.
Proof.
  intros E. unfold dt_update_slot in E. apply bind_inv in E as (x & _ & E). apply bind_inv in E as ([] & _ & E).
  apply bind_inv in E as ([] & _ & E). cbv zeta in E. apply bind_inv in E as ([v t1] & E1 & E).
  apply bind_inv in E as (tb & _ & E). injection E as <-. cbn [dt_with_table dt_capa].
  destruct (_ <? _); [injection E1 as _ <-; reflexivity|].
  destruct (_ <? _); apply bind_inv in E1 as (a & _ & E1); injection E1 as _ <-; reflexivity.
Qed.
Lemma cb_cap (H : trie_hashers) P mf : cap_ok (cb_ops P mf) (fun _ => false).
Proof.
  assert (Hnew : forall cb sb ch t, cb_new P mf cb sb ch = Ret t -> p2_new (N.max 16 cb) = Ret (dt_capa (cb_dt t))).
  { intros cb sb ch t E. unfold cb_new in E. apply bind_inv in E as (c & Ec & E). injection E as <-. apply (dt_new_cap _ _ _ _ _ _ Ec). }
  assert (Hroot : forall t t', cb_add_root t = Ret t' -> dt_capa (cb_dt t') = dt_capa (cb_dt t)).
  { intros t t' E. unfold cb_add_root in E. apply bind_inv in E as ([] & _ & E). injection E as <-. reflexivity. }
  assert (Hchild : forall t x s a y t', cb_add_child P t x s = Ret (a, y, t') -> dt_capa (cb_dt t') = dt_capa (cb_dt t)).
  { intros t x s a y t' E. unfold cb_add_child in E. cbv zeta in E. apply bind_inv in E as ([] & _ & E). apply bind_inv in E as ([] & _ & E).
    apply bind_inv in E as (hx & _ & E). destruct (dt_decompose _ hx) as [quo md].
    apply (loop_ret _ (fun _ => True) (fun '(_, _, t') => dt_capa (cb_dt t') = dt_capa (cb_dt t))) in E; [exact E|exact I|].
    clear E. intros [i cnt] _. destruct (cb_get_root t) as [root| | | |]; try exact I. cbn [bind].
    destruct (i =? root); [exact I|]. destruct (dt_compare_dsp _ _ i 0) as [e| | | |]; try exact I. cbn [bind]. destruct e.
    - destruct (_ =? _); [exact eq_refl|]. destruct (dt_update_slot _ _ _ _ _) as [d| | | |] eqn:Ed; try exact I. cbn [bind cb_dt].
      apply (dt_slot_cap _ _ _ _ _ _ _ Ed).
    - destruct (dt_compare_dsp _ _ i cnt) as [c| | | |]; try exact I. cbn [bind]. destruct c; [|exact I].
      destruct (dt_get_quo _ _ i) as [q| | | |]; try exact I. cbn [bind]. destruct (_ =? _); [exact eq_refl|exact I]. }
  constructor; cbn [cb_ops tT t_new t_add_root t_add_child t_expand t_capa]; unfold capb; cbn [t_capa cb_ops].
  - intros cb sb t E. split; [lia|]. apply (Hnew _ _ _ _ E).
  - intros b t t' [H1 H2] E. rewrite (Hroot _ _ E). auto.
  - intros b t x s a y t' [H1 H2] E. rewrite (Hchild _ _ _ _ _ _ E). auto.
  - intros b t nm t' [H1 H2] E. apply bind_inv in E as ([m t1] & E & Ee). injection Ee as _ <-. split; [lia|].
    unfold cb_expand in E. cbv zeta in E. apply bind_inv in E as (nt & En & E). apply bind_inv in E as (nt2 & Er & E).
    apply bind_inv in E as (root & _ & E). apply bind_inv in E as (d1 & _ & E). apply bind_inv in E as (low & _ & E).
    apply bind_inv in E as (high & _ & E). apply bind_inv in E as ([[[tb2 hi2] d2] nt3] & Em & E). injection E as <- <-. cbn [snd].
    apply (remap_ret _ _ _ _ _ _ _ (fun t' => p2_new (b + 1) = Ret (dt_capa (cb_dt t')))) in Em; [exact Em| |].
    + intros t2 x s a y t3 H3 E3. rewrite (Hchild _ _ _ _ _ _ E3). exact H3.
    + rewrite (Hroot _ _ Er). rewrite <- (Hnew _ _ _ _ En), (p2_new_some _ _ H2). symmetry. f_equal. apply (max16 b H1).
Qed.
Lemma pf_cap (H : plain_hasher) dbg mf : cap_ok (pf_ops dbg mf) (fun t => pf_max t <=? pf_size t).
Proof.
  assert (Hnew : forall cb sb t, pf_new mf cb sb = Ret t -> p2_new (N.max 16 cb) = Ret (pf_capa t)).
  { intros cb sb t E. unfold pf_new in E. apply bind_inv in E as (c & Ec & E). apply bind_inv in E as (s & _ & E).
    apply bind_inv in E as (v & _ & E). apply bind_inv in E as (w & _ & E). injection E as <-. exact Ec. }
  assert (Hexp : forall b t t', 16 <= b -> p2_new b = Ret (pf_capa t) -> pf_expand dbg mf t = Ret t' -> p2_new (b + 1) = Ret (pf_capa t')).
  { intros b t t' H1 H2 E. unfold pf_expand in E. apply bind_inv in E as (nt & En & E). apply bind_inv in E as (nt2 & Ef & E).
    injection E as <-. cbn [pf_capa].
    apply (for_range_ret _ _ _ _ _ (fun nt => p2_new (b + 1) = Ret (pf_capa nt))) in Ef; [exact Ef| |].
    - rewrite <- (Hnew _ _ _ En), (p2_new_some _ _ H2). symmetry. f_equal. apply (max16 b H1).
    - intros i s s' Hs Ei. apply bind_inv in Ei as (c & _ & Ei). destruct (c =? 0); [injection Ei as <-; exact Hs|].
      apply bind_inv in Ei as (key & _ & Ei). apply bind_inv in Ei as ([] & _ & Ei).
      apply (loop_ret _ (fun _ => True) (fun s' => p2_new (b + 1) = Ret (pf_capa s'))) in Ei; [exact Ei|exact I|].
      clear Ei. intros j _. destruct (cv_get _ j) as [x| | | |]; try exact I. cbn [bind]. destruct (x =? 0); [|exact I].
      destruct (cv_set _ j key) as [tb| | | |]; try exact I. cbn [bind]. destruct (cv_set _ j c) as [ib| | | |]; try exact I.
      exact Hs. }
  constructor; cbn [pf_ops tT t_new t_add_root t_add_child t_expand t_capa]; unfold capb; cbn [t_capa pf_ops].
  - intros cb sb t E. split; [lia|]. apply (Hnew _ _ _ E).
  - intros b t t' [H1 H2] E. unfold pf_add_root in E. apply bind_inv in E as ([] & _ & E). injection E as <-. auto.
  - intros b t x s a y t' [H1 H2] E. unfold pf_add_child in E. apply bind_inv in E as ([] & _ & E). apply bind_inv in E as ([] & _ & E).
    apply bind_inv in E as (t1 & Et & E). cbv zeta in E. apply bind_inv in E as ([] & _ & E).
    set (b' := if pf_max t <=? pf_size t then b + 1 else b).
    assert (Hb : 16 <= b' /\ p2_new b' = Ret (pf_capa t1)).
    { unfold b'. destruct (_ <=? _); [|injection Et as <-; auto]. split; [lia|]. apply (Hexp b t t1 H1 H2 Et). }
    split; [apply Hb|]. destruct Hb as [_ Hb].
    apply (loop_ret _ (fun _ => True) (fun '(_, _, t') => p2_new b' = Ret (pf_capa t'))) in E; [exact E|exact I|].
    clear E. intros i _. destruct (cv_get _ i) as [c| | | |]; try exact I. cbn [bind]. destruct (c =? 0).
    + cbv zeta. destruct (assert_ _) as [[]| | | |]; try exact I. cbn [bind].
      destruct (cv_set _ i _) as [tb| | | |]; try exact I. cbn [bind]. destruct (cv_set _ i _) as [ib| | | |]; try exact I. exact Hb.
    + destruct (cv_get _ i) as [x2| | | |]; try exact I. cbn [bind]. destruct (_ =? _); [exact Hb|exact I].
  - discriminate.
Qed.
Lemma cf_cap (H : trie_hashers) P mf : cap_ok (cf_ops P mf) (fun t => cf_max t <=? cf_size t).
Proof.
  assert (Hnew : forall cb sb ch t, cf_new P mf cb sb ch = Ret t -> p2_new (N.max 16 cb) = Ret (dt_capa (cf_dt t))).
  { intros cb sb ch t E. unfold cf_new in E. apply bind_inv in E as (c & Ec & E). cbv zeta in E. apply bind_inv in E as (v & _ & E).
    injection E as <-. apply (dt_new_cap _ _ _ _ _ _ Ec). }
  assert (Hslot : forall t i q d x t', cf_update_slot P t i q d x = Ret t' -> dt_capa (cf_dt t') = dt_capa (cf_dt t)).
  { intros t i q d x t' E. unfold cf_update_slot in E. apply bind_inv in E as (c & Ec & E). apply bind_inv in E as (v & _ & E).
    injection E as <-. apply (dt_slot_cap _ _ _ _ _ _ _ Ec). }
  assert (Hexp : forall b t t', 16 <= b -> p2_new b = Ret (dt_capa (cf_dt t)) -> cf_expand P mf t = Ret t' -> p2_new (b + 1) = Ret (dt_capa (cf_dt t'))).
  { intros b t t' H1 H2 E. unfold cf_expand in E. cbv zeta in E. apply bind_inv in E as (nt & En & E). apply bind_inv in E as (nt2 & Ef & E).
    injection E as <-. cbn [cf_dt].
    apply (for_range_ret _ _ _ _ _ (fun nt => p2_new (b + 1) = Ret (dt_capa (cf_dt nt)))) in Ef; [exact Ef| |].
    - rewrite <- (Hnew _ _ _ _ En), (p2_new_some _ _ H2). symmetry. f_equal. apply (max16 b H1).
    - intros i s s' Hs Ei. apply bind_inv in Ei as (c & _ & Ei). destruct (_ =? _); [injection Ei as <-; exact Hs|].
      apply bind_inv in Ei as (dist & _ & Ei). apply bind_inv in Ei as (q & _ & Ei). apply bind_inv in Ei as (key & _ & Ei).
      apply bind_inv in Ei as (x & _ & Ei). destruct (dt_decompose _ x) as [quo md].
      apply (loop_ret _ (fun _ => True) (fun s' => p2_new (b + 1) = Ret (dt_capa (cf_dt s')))) in Ei; [exact Ei|exact I|].
      clear Ei. intros [j cnt] _. destruct (cv_get _ j) as [y| | | |]; try exact I. cbn [bind]. destruct (_ =? _); [|exact I].
      destruct (cf_update_slot _ _ _ _ _ _) as [n| | | |] eqn:En2; try exact I. cbn [bind]. rewrite (Hslot _ _ _ _ _ _ En2). exact Hs. }
  constructor; cbn [cf_ops tT t_new t_add_root t_add_child t_expand t_capa]; unfold capb; cbn [t_capa cf_ops].
  - intros cb sb t E. split; [lia|]. apply (Hnew _ _ _ _ E).
  - intros b t t' [H1 H2] E. unfold cf_add_root in E. apply bind_inv in E as ([] & _ & E). injection E as <-. auto.
  - intros b t x s a y t' [H1 H2] E. unfold cf_add_child in E. apply bind_inv in E as ([] & _ & E). apply bind_inv in E as ([] & _ & E).
    apply bind_inv in E as (t1 & Et & E). cbv zeta in E. apply bind_inv in E as (hx & _ & E). destruct (dt_decompose _ hx) as [quo md].
    set (b' := if cf_max t <=? cf_size t then b + 1 else b).
    assert (Hb : 16 <= b' /\ p2_new b' = Ret (dt_capa (cf_dt t1))).
    { unfold b'. destruct (_ <=? _); [|injection Et as <-; auto]. split; [lia|]. apply (Hexp b t t1 H1 H2 Et). }
    split; [apply Hb|]. destruct Hb as [_ Hb].
    apply (loop_ret _ (fun _ => True) (fun '(_, _, t') => p2_new b' = Ret (dt_capa (cf_dt t')))) in E; [exact E|exact I|].
    clear E. intros [i cnt] _. destruct (cv_get _ i) as [c| | | |]; try exact I. cbn [bind]. destruct (c =? _).
    + destruct (cf_update_slot _ _ _ _ _ _) as [n| | | |] eqn:En; try exact I. cbn [bind cf_dt]. rewrite (Hslot _ _ _ _ _ _ En). exact Hb.
    + destruct (dt_compare_dsp _ _ i cnt) as [e| | | |]; try exact I. cbn [bind]. destruct e; [|exact I].
      destruct (dt_get_quo _ _ i) as [q| | | |]; try exact I. cbn [bind]. destruct (_ =? _); [exact Hb|exact I].
  - intros b t nm t' H1 E. discriminate E.
Qed.
Lemma i_cap dbg i : cap_ok (i_trie dbg i) (i_full dbg i).
Proof. destruct i as [[H mf|H P mf|H mf|H P mf] l]; [apply pb_cap|apply cb_cap|apply pf_cap|apply cf_cap]. Qed.

Theorem i_resize_ok dbg vs i cb lam ops s0 xs s : s_new dbg vs i cb lam = Ret s0 -> s_run dbg vs i s0 ops = Ret (xs, s) ->
  s_capa_size dbg vs i s = 2 ^ (N.max 16 cb + s_num_resize dbg vs i s).
Proof.
  intros E Er. unfold s_new, stats_new in E. apply bind_inv in E as (m & E & H). injection H as <-.
  destruct (new_ready _ _ _ _ _ E) as [Hr (sb & Hn)]. unfold s_trie in *.
  pose proof (capJ_new _ _ (i_cap dbg i) _ _ _ Hn) as HJ.
  apply (kept_run dbg _ _ (capJ _ _ (N.max 16 cb)) (capJ _ _ (N.max 16 cb)) (capJ_kept _ _ (i_cap dbg i) _) False ltac:(intros [])) in Er.
  - destruct Er as [Hk _]. unfold kinv, kany in Hk. destruct (m_ready _ _ _); [|contradiction].
    destruct (_ =? 0); exact (capb_size _ (i_full dbg i) _ _ Hk).
  - split; [unfold kinv, kany; cbn [sm_map]; rewrite Hr; destruct (_ =? 0); exact HJ|]. cbn [sm_map]. rewrite Hr. discriminate.
Qed.
Theorem i_resize_default_ok dbg vs i ops xs s : s_run dbg vs i (s_default dbg vs i) ops = Ret (xs, s) ->
  updated ops <> [] ->
  s_capa_size dbg vs i s = 2 ^ (16 + s_num_resize dbg vs i s).
Proof.
  intros Er Hu. unfold s_run, s_capa_size, s_num_resize, s_map, s_trie in *.
  assert (H0 : kinv0 _ _ (capJ (i_trie dbg i) (i_full dbg i) 16) (capJ (i_trie dbg i) (i_full dbg i) 16) True (sm_map _ _ (s_default dbg vs i))).
  { split; [exact I|]. intros _. destruct i as [[H mf|H P mf|H mf|H P mf] l]; reflexivity. }
  assert (Hn : True -> forall sb t, t_new (resize_ops (i_trie dbg i) (i_full dbg i)) 0 sb = Ret t -> capJ (i_trie dbg i) (i_full dbg i) 16 t).
  { intros _ sb t Hn. apply (capJ_new _ _ (i_cap dbg i) _ _ _ Hn). }
  pose proof (run_ready dbg _ _ _ _ (capJ_kept _ _ (i_cap dbg i) 16) True Hn ops _ _ _ H0 Er (or_intror Hu)) as Hr.
  apply (kept_run dbg _ _ _ _ (capJ_kept _ _ (i_cap dbg i) 16) True Hn) in Er; [|exact H0].
  destruct Er as [Hk _]. unfold kinv, kany in Hk. rewrite Hr in Hk. destruct (_ =? 0); exact (capb_size _ (i_full dbg i) _ _ Hk).
Qed.

(** ** num_steps_: the nodes that are not keys *)
Lemma wpx_of_ret {A} (L : Prop) (o : outcome A) v Q : wpx L o Q -> o = Ret v -> Q v.
Proof. intros H E. rewrite E in H. exact H. Qed.
Lemma add64_1 c : c < 2 ^ 63 -> add64 c 1 = c + 1.
Proof. intros H. unfold add64. rewrite w64_mod. apply N.mod_small. change (2 ^ 64) with (2 * 2 ^ 63). lia. Qed.

Definition adds_ok (TO : trie_ops) (NO : nlm_ops) (L : lims) (sb : N) (srep : N -> tT TO -> nT NO -> locmap -> labmap -> Prop) : Prop :=
  forall b t n loc lab p x a y t', srep b t n loc lab -> loc !! p = Some x -> step_symb < 2 ^ sb ->
    N.of_nat (size loc) + 1 < l_max L -> t_add_child TO t x step_symb = Ret (a, y, t') -> a = bool_decide (loc !! (step_symb :: p) = None).
Lemma bonsai_adds (TO : trie_ops) (NO : nlm_ops) (L : lims) (mf sb : N) rep fresh nrep : bonsai_ok TO L mf sb rep fresh ->
  adds_ok TO NO L sb (bsrep TO NO L mf rep nrep).
Proof.
  intros HO b t n loc lab p x a y t' (Hr & [Hl _] & _) Hp Hs Hroom E.
  pose proof (wpx_of_ret _ _ _ _ (bo_add _ _ _ _ _ _ HO b t loc p x step_symb Hr Hp Hs Hl Hroom) E) as H. cbn beta iota in H.
  destruct (loc !! (step_symb :: p)); destruct H as [-> _]; reflexivity.
Qed.
Lemma fkhash_adds (TO : trie_ops) (NO : nlm_ops) (L : lims) (mf sb : N) (B : bool) rep fresh nrep : fkhash_ok TO L mf sb B rep fresh ->
  adds_ok TO NO L sb (fsrep TO NO L mf rep nrep).
Proof.
  intros HO b t n loc lab p x a y t' ([Hr _] & _) Hp Hs Hroom E.
  assert (Hb : B = true -> step_symb :: p <> [0]) by (intros _ H; discriminate H).
  pose proof (wpx_of_ret _ _ _ _ (fo_add _ _ _ _ _ _ _ HO b t loc p x step_symb Hr Hp Hs Hb Hroom) E) as H. cbn beta iota in H.
  destruct H as (b' & _ & H). destruct (loc !! (step_symb :: p)); destruct H as [-> _]; reflexivity.
Qed.

Section steps.
  Context (dbg : bool) (TO : trie_ops) (NO : nlm_ops) (L : lims) (mf e : N) (B : bool) {Q : Type} (stable : nT NO -> N -> Q -> Prop).
  Context (srep : N -> tT TO -> nT NO -> locmap -> labmap -> Prop) (sfresh : N -> tT TO -> nT NO -> Prop).
  Context (npt : nT NO -> N -> ptr -> Prop) (full : tT TO -> bool).
  Hypothesis HS : store_ok TO NO L mf (8 + e) B stable srep sfresh npt.
  Hypothesis He : e <= 39.
  Hypothesis Hmf : 1 <= mf <= 99.
  Hypothesis HA : adds_ok TO NO L (8 + e) srep.
  Notation vs := (n_vs NO).
  Notation TS := (resize_ops TO full).
  Notation mrep := (mrep TO NO e srep).
  Notation minv := (minv TO NO e srep sfresh).
  Notation upd_inv := (upd_inv TO NO e stable srep).
  Notation upd_post := (upd_post TO NO e stable srep npt).
  Notation er := (er TO NO full).
  Notation ers := (ers TO NO full).

  Lemma lim_63 n : n < l_max L -> n < 2 ^ 63.
  Proof.
    intros H. pose proof (so_lim _ _ _ _ _ _ _ _ _ _ HS) as H1. pose proof (node_limit_57 mf (8 + e) Hmf) as H2.
    assert (2 ^ 57 < 2 ^ 63) by reflexivity. lia.
  Qed.
  Lemma size_insert_dom (loc loc' : locmap) q : dom loc' = {[ q ]} ∪ dom loc -> loc !! q = None -> size loc' = S (size loc).
  Proof.
    intros H Hq. rewrite <- !size_dom, H, size_union.
    - rewrite size_singleton. reflexivity.
    - apply not_elem_of_dom in Hq. clear -Hq. set_solver.
  Qed.
  Lemma size_same_dom (loc loc' : locmap) q : dom loc' = {[ q ]} ∪ dom loc -> is_Some (loc !! q) -> size loc' = size loc.
  Proof.
    intros H Hq. rewrite <- !size_dom, H. f_equal. apply elem_of_dom in Hq. clear -Hq. set_solver.
  Qed.

  Lemma step_count b (t : tT TS) n loc lab p x c K y t' n' c' : srep b (fst t) n loc lab -> loc !! p = Some x ->
    N.of_nat (size loc) + 1 < l_max L -> c + K = N.of_nat (size loc) ->
    stats_add_step TS NO x t n c = Ret (y, t', n', c') ->
    exists b' loc', b <= b' /\ srep b' (fst t') n' loc' lab /\ loc' !! (step_symb :: p) = Some y /\
      dom loc' = {[ step_symb :: p ]} ∪ dom loc /\ keeps NO stable n n' loc loc' /\ c' + K = N.of_nat (size loc').
  Proof.
    intros Hs Hx Hroom Hc E.
    pose proof (er_step TO NO full x t n c) as E1. rewrite E, bind_ret in E1.
    pose proof (wpx_of_ret _ _ _ _ (so_step _ _ _ _ _ _ _ _ _ _ HS b (fst t) n loc lab p x Hs Hx (step_lt e He) Hroom) E1) as H.
    cbn beta iota in H. destruct H as (b' & loc' & Hb & Hs' & Hy & Hd & Hk). exists b', loc'. repeat (split; [assumption|]).
    unfold stats_add_step in E. apply bind_inv in E as ([[a z] t1] & Ea & E). cbn [resize_ops t_add_child] in Ea.
    apply bind_inv in Ea as ([[a1 z1] t2] & Ea & E2). injection E2 as -> -> <-.
    pose proof (HA _ _ _ _ _ _ _ _ _ _ Hs Hx (step_lt e He) Hroom Ea) as Ha.
    destruct (loc !! (step_symb :: p)) as [w|] eqn:Ew.
    - rewrite bool_decide_false in Ha by discriminate. subst a. injection E as _ _ _ <-.
      rewrite (size_same_dom loc loc' _ Hd) by (rewrite Ew; eauto). exact Hc.
    - rewrite bool_decide_true in Ha by reflexivity. subst a. apply bind_inv in E as ([[y2 t3] n2] & _ & E). cbv zeta in E.
      assert (Ec : c' = add64 c 1).
      { destruct (t_kind TS); [injection E as _ _ _ <-; reflexivity|]. apply bind_inv in E as ([] & _ & E).
        apply bind_inv in E as (n3 & _ & E). injection E as _ _ _ <-. reflexivity. }
      assert (H63 : c < 2 ^ 63) by (apply lim_63; lia).
      rewrite Ec, (add64_1 c H63), (size_insert_dom loc loc' _ Hd Ew). lia.
  Qed.

  Lemma steps_count (b : N) (t : tT TS) (n : nT NO) (loc : locmap) (lab : labmap) (p : list N) (x mtch : N) (F : gset (list N)) c K x' m' t' n' c' :
    srep b (fst t) n loc lab -> loc !! p = Some x -> mtch < 2 ^ 64 ->
    dom loc ⊆ F -> (forall i, N.of_nat i <= mtch / 2 ^ e -> replicate i 255 ++ p ∈ F) ->
    N.of_nat (size F) + 1 < l_max L -> c + K = N.of_nat (size loc) ->
    stats_update_steps TS NO (2 ^ e) t n x mtch c = Ret (x', m', t', n', c') ->
    m' = mtch mod 2 ^ e /\ exists b' loc', b <= b' /\ srep b' (fst t') n' loc' lab /\
        loc' !! (replicate (N.to_nat (mtch / 2 ^ e)) 255 ++ p) = Some x' /\
        (forall q, is_Some (loc' !! q) -> is_Some (loc !! q) \/
           exists i, N.of_nat i <= mtch / 2 ^ e /\ q = replicate i 255 ++ p) /\
        (forall q, is_Some (loc !! q) -> is_Some (loc' !! q)) /\ keeps NO stable n n' loc loc' /\ c' + K = N.of_nat (size loc').
  Proof.
    intros Hs Hp Hm HF1 HF2 Hroom Hc E. unfold stats_update_steps in E. pose proof (lam_pos e) as Hlam.
    apply (loop_ret _ (fun '(y, m, t', n', c') => m <= mtch /\ m mod 2 ^ e = mtch mod 2 ^ e /\
      m / 2 ^ e <= mtch / 2 ^ e /\
      exists b' loc', b <= b' /\ srep b' (fst t') n' loc' lab /\
        loc' !! (replicate (N.to_nat (mtch / 2 ^ e - m / 2 ^ e)) 255 ++ p) = Some y /\
        (forall q, is_Some (loc' !! q) -> is_Some (loc !! q) \/
           exists i, N.of_nat i <= mtch / 2 ^ e /\ q = replicate i 255 ++ p) /\
        (forall q, is_Some (loc !! q) -> is_Some (loc' !! q)) /\ keeps NO stable n n' loc loc' /\ c' + K = N.of_nat (size loc'))
      (fun '(x', m', t', n', c') => m' = mtch mod 2 ^ e /\ exists b' loc', b <= b' /\ srep b' (fst t') n' loc' lab /\
        loc' !! (replicate (N.to_nat (mtch / 2 ^ e)) 255 ++ p) = Some x' /\
        (forall q, is_Some (loc' !! q) -> is_Some (loc !! q) \/
           exists i, N.of_nat i <= mtch / 2 ^ e /\ q = replicate i 255 ++ p) /\
        (forall q, is_Some (loc !! q) -> is_Some (loc' !! q)) /\ keeps NO stable n n' loc loc' /\ c' + K = N.of_nat (size loc'))) in E;
      [exact E| |].
    - split; [lia|]. split; [reflexivity|]. split; [lia|]. exists b, loc. split; [lia|]. split; [exact Hs|].
      rewrite N.sub_diag. split; [exact Hp|]. split; [auto|]. split; [auto|]. split; [apply keeps_refl|exact Hc].
    - clear E x' m' t' n' c'.
      intros [[[[y m] t'] n'] c1] (Hle & Hmod & Hdiv & b' & loc' & Hb & Hs' & Hy & Hnew & Hold & Hk & Hc1).
      assert (Hsz : N.of_nat (size loc') <= N.of_nat (size F)).
      { rewrite <- size_dom. apply of_nat_mono. apply subseteq_size. intros q Hq. apply elem_of_dom in Hq.
        apply Hnew in Hq as [Hq|(i & Hi & ->)]; [apply HF1, elem_of_dom, Hq|apply HF2, Hi]. }
      destruct (N.leb_spec (2 ^ e) m) as [Hge|Hlt].
      + destruct (div_sub_pow m (2 ^ e) ltac:(lia) Hge) as (E1 & E2 & E3).
        destruct (stats_add_step TS NO y t' n' c1) as [[[[y2 t2] n2] c2]| | | |] eqn:Est; try exact I. cbn [bind].
        destruct (step_count b' t' n' loc' lab _ y c1 K y2 t2 n2 c2 Hs' Hy ltac:(lia) Hc1 Est) as (b2 & loc2 & Hb2 & Hs2 & Hy2 & Hd2 & Hk2 & Hc2).
        assert (Esub : sub64 m (2 ^ e) = m - 2 ^ e).
        { unfold sub64, UINT64_MAX. rewrite w64_mod. change (18446744073709551615 + 1) with (2 ^ 64).
          pose proof (lam_64 e He). replace (m + (2 ^ 64 - 2 ^ e)) with ((m - 2 ^ e) + 1 * 2 ^ 64) by lia.
          rewrite N.mod_add by discriminate. apply N.mod_small. lia. }
        rewrite Esub. split; [lia|]. split; [congruence|]. split; [lia|].
        exists b2, loc2. split; [lia|]. split; [exact Hs2|].
        assert (Epath : step_symb :: replicate (N.to_nat (mtch / 2 ^ e - m / 2 ^ e)) 255 ++ p =
                        replicate (N.to_nat (mtch / 2 ^ e - (m - 2 ^ e) / 2 ^ e)) 255 ++ p).
        { replace (N.to_nat (mtch / 2 ^ e - (m - 2 ^ e) / 2 ^ e))
            with (Datatypes.S (N.to_nat (mtch / 2 ^ e - m / 2 ^ e))) by lia. reflexivity. }
        rewrite Epath in *. split; [exact Hy2|]. split.
        { intros q Hq. apply elem_of_dom in Hq. rewrite Hd2 in Hq. apply elem_of_union in Hq as [Hq|Hq].
          - apply elem_of_singleton in Hq as ->. right. eexists. split; [|reflexivity]. lia.
          - apply Hnew. apply elem_of_dom, Hq. }
        split.
        { intros q Hq. apply elem_of_dom. rewrite Hd2. apply elem_of_union_r. apply elem_of_dom. apply Hold, Hq. }
        split; [eapply keeps_trans; eassumption|exact Hc2].
      + rewrite N.mod_small in Hmod by exact Hlt. split; [exact Hmod|].
        rewrite (N.div_small m) in * by exact Hlt. rewrite N.sub_0_r in *. exists b', loc'. auto 10.
  Qed.

  Definition cnt (c : N) (m : map_st TS NO) : Prop := c + m_size _ _ m = t_size TO (fst (m_trie _ _ m)).

  Lemma body_count m S D M b loc lab k m1 c x key r : dvalid S D -> dict_of D M -> bytes k -> small vs k -> (B = true -> k <> [0]) ->
    node_bound e (dom M) + 1 < l_max L -> ((size S < 255)%nat \/ forall c, c ∈ k -> c ∈ S) ->
    upd_inv m S D M b loc lab k (er m1, x, key) -> cnt c m1 ->
    stats_update_body dbg TS NO (m1, c, x, key) = Ret r ->
    match r with inl (m2, c2, _, _) => cnt c2 m2 | inr (_, s) => cnt (sm_steps _ _ s) (sm_map _ _ s) end.
  Proof.
    intros HD [Hd1 Hd2] Hb Hsm HB Hroom HS255 Hinv Hcnt E. assert (Hlen : N.of_nat (length k) < 2 ^ 64) by (unfold small in Hsm; lia).
    destruct Hinv as (π & l & v & b1 & loc1 & Hb1 & R1 & _ & Hx & Hl & Hcmp & [pre Epre] & Hsp & _).
    unfold stats_update_body in E.
    pose proof (mr_store _ _ _ _ _ _ _ _ _ _ _ R1) as Hs. pose proof (mr_codes _ _ _ _ _ _ _ _ _ _ _ R1) as HC.
    assert (Hlab : lab !! MapP.enc e (m_codes _ _ m1) π = Some (l, v)) by apply (mr_lab _ _ _ _ _ _ _ _ _ _ _ R1 π _ Hl).
    assert (Hlk : (length key <= length k)%nat) by (rewrite Epre, app_length; clear; lia).
    assert (Hbk : bytes key). { rewrite Epre in Hb. apply Forall_app in Hb as [_ H]. exact H. }
    destruct (so_compare _ _ _ _ _ _ _ _ _ _ HS _ _ _ _ _ _ x key l v Hs Hx Hlab Hcmp) as [Heq Hne].
    cbn [StatsP.er m_trie m_nlm m_codes] in Hs, HC, Hx, Heq, Hne.
    destruct key as [|c' key'].
    { apply bind_inv in E as (r0 & _ & E). injection E as <-. exact Hcnt. }
    set (key := c' :: key') in *. destruct (decide (key = l)) as [El|El].
    { destruct (Heq El) as (p & i & E' & Hp). rewrite E', bind_ret in E. injection E as <-. exact Hcnt. }
    rewrite (Hne El), bind_ret in E. cbv zeta in E.
    destruct (compat_split key l c' key' Hcmp eq_refl El) as (a & c0 & d & r0 & l' & Ek & Ell & Hcd & Ha & Hr).
    rewrite <- Ha in E. rewrite (advance_split a r0 c0 key Ek) in E.
    pose proof (mr_lam _ _ _ _ _ _ _ _ _ _ _ R1) as Hlam. cbn [StatsP.er m_lambda] in Hlam. rewrite Hlam in E.
    assert (Hlen3 : (length key = length a + 1 + length r0)%nat) by (rewrite Ek, app_length; simpl; clear; lia).
    assert (Hc256 : c0 < 256). { rewrite Ek in Hbk. apply Forall_app in Hbk as [_ Hbk]. apply Forall_cons_1 in Hbk as [H _]. exact H. }
    assert (HcK : c0 ∈ k). { rewrite Epre, Ek. apply elem_of_app. right. apply elem_of_app. right. left. }
    destruct (mrep_slots _ _ _ _ _ _ _ _ _ _ _ R1) as [HF1 HF2].
    assert (Hfit : forall i, N.of_nat i <= N.of_nat (length a) / 2 ^ e -> CountP.fits e D i π).
    { intros i. apply (fits_split e D π l v a d l' i Hl Ell). }
    apply bind_inv in E as ([[[[x2 m2] t2] n2] c2] & Est & E).
    unfold cnt in Hcnt. rewrite (so_size _ _ _ _ _ _ _ _ _ _ HS _ _ _ _ _ Hs) in Hcnt.
    destruct (steps_count b1 _ _ loc1 lab _ x (N.of_nat (length a)) (all_slots e (paths TO NO e (er m1)) D) c (m_size _ _ m1) x2 m2 t2 n2 c2 Hs Hx)
      as (-> & b2 & loc2 & Hb2 & Hs2 & Hx2 & Hnew2 & Hold2 & Hk2' & Hc2); [| | | | |exact Est|].
    { apply (MapP.nat_lt_64 e He k); [exact Hlen|clear -Hlen3 Hlk; lia]. }
    { exact HF1. }
    { intros i Hi. apply (all_slots_in e (paths TO NO e (er m1)) D i π (Hfit i Hi)). }
    { clear -Hroom HF2; lia. }
    { exact Hcnt. }
    fold (esteps e (length a)) in Hx2.
    pose proof (mrep_steps TO NO e srep (er m1) S D M b1 loc1 lab π b2 loc2 (fst t2) n2 R1 Hs2) as R2.
    specialize (R2 ltac:(intros q Hq; destruct (Hnew2 q Hq) as [H|(i & Hi & H)]; [left; exact H|right; exists i; split; [apply Hfit, Hi|exact H]])).
    assert (Hleaf : forall m3 S3 codes num, mrep m3 S3 D M b2 loc2 lab -> c0 ∈ S3 ->
      (forall ρ, is_Some (D !! ρ) -> MapP.enc e codes ρ = MapP.enc e (m_codes _ _ m1) ρ) ->
      codes = m_codes _ _ m3 ->
      (let* symb := make_symb dbg codes c0 (N.of_nat (length a) mod 2 ^ e) in
       let* r1 := add_leaf TS NO x2 symb (advance (c0 :: r0) 1) t2 n2 in
       let '(p, node_id, t, n) := r1 in
       match p with
       | Some p =>
           Ret (inr (UPtr (Some p), mkStats TS NO (mkMap TS NO (m_ready _ _ m1) (2 ^ e) t n codes num (add64 (m_size _ _ m1) 1)) c2))
       | None => Ret (inl (mkMap TS NO (m_ready _ _ m1) (2 ^ e) t n codes num (m_size _ _ m1), c2, node_id, advance (c0 :: r0) 1))
       end) = Ret r ->
      match r with inl (m2, c2, _, _) => cnt c2 m2 | inr (_, s) => cnt (sm_steps _ _ s) (sm_map _ _ s) end).
    { clear E. intros m3 S3 codes num R3 HcS Henc -> E.
      pose proof (mr_codes _ _ _ _ _ _ _ _ _ _ _ R3) as HC3.
      rewrite (make_symb_ok e _ _ S3 HC3 dbg (length a) c0 HcS He), bind_ret in E. change (advance (c0 :: r0) 1) with r0 in E.
      assert (Ep : esym e (m_codes _ _ m3) (length a) c0 :: replicate (esteps e (length a)) 255 ++ MapP.enc e (m_codes _ _ m1) π =
        MapP.enc e (m_codes _ _ m3) ((length a, c0) :: π)).
      { simpl. rewrite (Henc π) by eauto. reflexivity. }
      apply bind_inv in E as ([[[o x4] t4] n4] & El4 & E).
      pose proof (er_leaf TO NO full x2 (esym e (m_codes _ _ m3) (length a) c0) r0 t2 n2) as E1. rewrite El4, bind_ret in E1.
      assert (Hroom2 : N.of_nat (size loc2) + 1 < l_max L).
      { pose proof (mrep_count _ _ _ _ _ _ _ _ _ _ _ R3) as Hc3. clear -Hroom Hc3; lia. }
      pose proof (fun H1 H2 H3 H4 => wpx_of_ret _ _ _ _ (so_leaf _ _ _ _ _ _ _ _ _ _ HS b2 (fst t2) n2 loc2 lab _ x2
        (esym e (m_codes _ _ m3) (length a) c0) r0 Hs2 Hx2 H1 H2 H3 H4 Hroom2) E1) as H.
      destruct H as (b4 & loc4 & Hb4 & Hx4 & _ & Hm4).
      - apply (esym_lt e _ _ S3 HC3 _ c0 HcS He).
      - intros HBt E0. apply (HB HBt). rewrite Ep in E0. destruct π as [|[mm cc] π0].
        + simpl in E0. injection E0 as E1' E2. apply app_nil in E2 as [E2 _].
          assert (Ec : vnth (m_codes _ _ m3) c0 = 0). { unfold esym in E1'. clear -E1'; lia. }
          destruct (co_0 _ _ _ HC3) as [H0S H0c].
          assert (c0 = 0) as ->. { apply (co_inj _ _ _ HC3 c0 0); [exact HcS|exact H0S|]. rewrite Ec, H0c. reflexivity. }
          assert (Em0 : length a = 0%nat).
          { destruct (esteps e (length a)) as [|j] eqn:Est'; [|discriminate].
            unfold esteps in Est'. unfold esym in E1'.
            pose proof (N.div_mod (N.of_nat (length a)) (2 ^ e)) as Hdm. pose proof (lam_pos e).
            assert (N.of_nat (length a) mod 2 ^ e = 0) by (clear -E1'; lia).
            assert (N.of_nat (length a) / 2 ^ e = 0) by (clear -Est'; lia).
            rewrite H0, H1 in Hdm. specialize (Hdm ltac:(clear -H; lia)). clear -Hdm; lia. }
          destruct a; [|discriminate]. destruct Hr as [[_ ->]|[H _]]; [|congruence].
          simpl in Hsp. rewrite <- Hsp. exact Ek.
        + exfalso. apply (f_equal length) in E0. simpl in E0. rewrite app_length in E0. simpl in E0. clear -E0; lia.
      - destruct Hr as [[_ ->]|[_ H]]; [left; reflexivity|right; exact H].
      - unfold small in *. clear -Hsm Hlk Hlen3; lia.
      - rewrite Ep in Hm4. destruct (loc2 !! MapP.enc e (m_codes _ _ m3) ((length a, c0) :: π)) as [y|] eqn:Ey.
        + destruct Hm4 as (-> & Hs4 & Hd4). injection E as <-. unfold cnt. cbn [m_size m_trie].
          rewrite (so_size _ _ _ _ _ _ _ _ _ _ HS _ _ _ _ _ Hs4), <- size_dom, Hd4, size_dom. exact Hc2.
        + destruct Hm4 as (pt & -> & _ & Hd4 & Hs4). injection E as <-. unfold cnt. cbn [sm_map sm_steps m_size m_trie].
          rewrite (so_size _ _ _ _ _ _ _ _ _ _ HS _ _ _ _ _ Hs4), (size_insert_dom loc2 loc4 _ Hd4 Ey).
          rewrite add64_1 by (apply lim_63; clear -Hc2 Hroom2; lia). clear -Hc2; lia. }
    cbn [deref] in E. rewrite bind_ret in E.
    rewrite vget_ok in E by (rewrite (co_len _ _ _ HC); exact Hc256). rewrite bind_ret in E.
    rewrite (codes_ok_255 _ _ S c0 HC Hc256) in E. destruct (bool_decide_reflect (c0 ∈ S)) as [HcS|HcS]; cbn [negb] in E.
    - rewrite bind_ret in E. apply (Hleaf _ S (m_codes _ _ m1) (m_num_codes _ _ m1) R2 HcS (fun _ _ => eq_refl) eq_refl). exact E.
    - rewrite vset_ok in E by (rewrite (co_len _ _ _ HC); exact Hc256). rewrite !bind_ret in E.
      assert (Hnum : m_num_codes _ _ m1 < 255).
      { destruct HS255 as [H|H]; [|destruct (HcS (H c0 HcK))]. pose proof (co_num _ _ _ HC) as Hn. cbn [StatsP.er m_num_codes] in Hn. rewrite Hn. clear -H; lia. }
      destruct (mrep_code TO NO L mf e B stable srep sfresh npt HS He _ S D M b2 loc2 lab c0 R2 Hc256 HcS Hnum) as [R3 _].
      destruct (N.eqb_spec (m_num_codes TS NO m1 + 1) 255) as [E255|E255].
      + injection E as <-. unfold cnt. cbn [sm_map sm_steps m_size m_trie].
        rewrite (so_size _ _ _ _ _ _ _ _ _ _ HS _ _ _ _ _ Hs2). exact Hc2.
      + apply (Hleaf _ ({[ c0 ]} ∪ S) (vupd (m_codes _ _ m1) c0 (m_num_codes _ _ m1 mod 256)) (m_num_codes TS NO m1 + 1) R3); [clear; set_solver| |reflexivity|exact E].
        intros ρ Hρ. apply (MapP.enc_ext e _ S).
        { apply (dvalid_inS S D ρ HD Hρ). }
        intros dd Hdd. apply vnth_upd_ne. congruence.
  Qed.

  Lemma update_count s S D M b loc k r s' : minv (ers s) S D M b loc -> okey k -> bytes k -> small vs k -> (B = true -> k <> [0]) ->
    node_bound e (dom M) + 1 < l_max L -> ((size S < 255)%nat \/ forall c, c ∈ k -> c ∈ S) ->
    cnt (sm_steps _ _ s) (sm_map _ _ s) -> stats_update dbg TS NO s k = Ret (r, s') -> cnt (sm_steps _ _ s') (sm_map _ _ s').
  Proof.
    intros Hi Hk Hb Hsm HB Hroom HS255 Hcnt E. unfold stats_update in E.
    apply bind_inv in E as ([] & _ & E). cbn [resize_ops t_size] in E.
    destruct Hi as [(-> & -> & -> & -> & Hf)|[lab R]].
    - destruct (so_fresh _ _ _ _ _ _ _ _ _ _ HS _ _ _ (mf_store _ _ _ _ _ _ Hf)) as [Hsz _].
      unfold StatsP.ers in Hsz. cbn [StatsP.er m_trie] in Hsz. unfold cnt in Hcnt. rewrite Hsz in *. rewrite N.eqb_refl in E.
      pose proof (mf_ready _ _ _ _ _ _ Hf) as Hrd. unfold StatsP.ers in Hrd. cbn [StatsP.er m_ready] in Hrd. rewrite Hrd in E.
      cbn [negb] in E. rewrite bind_ret in E.
      destruct (so_first _ _ _ _ _ _ _ _ _ _ HS b _ _ k (mf_store _ _ _ _ _ _ Hf) Hsm) as (p & t' & n' & r1 & E1 & Hs & Hp).
      apply bind_inv in E as ([[p2 t2] n2] & E2 & E). injection E as _ <-. unfold cnt. cbn [sm_steps sm_map m_size m_trie].
      pose proof (er_first TO NO full k (m_trie _ _ (sm_map _ _ s)) (m_nlm _ _ (sm_map _ _ s))) as E3.
      rewrite E2, bind_ret in E3. unfold StatsP.ers in E1. cbn [StatsP.er m_trie m_nlm] in E1. rewrite E1 in E3. injection E3 as _ -> _.
      rewrite (so_size _ _ _ _ _ _ _ _ _ _ HS _ _ _ _ _ Hs), map_size_singleton.
      assert (Hz : m_size _ _ (sm_map _ _ s) = 0) by lia. rewrite Hz. change (add64 0 1) with 1. lia.
    - pose proof (mr_D _ _ _ _ _ _ _ _ _ _ _ R) as HD. pose proof (mr_dict _ _ _ _ _ _ _ _ _ _ _ R) as Hd.
      pose proof (mr_store _ _ _ _ _ _ _ _ _ _ _ R) as Hs0.
      destruct (mr_ne _ _ _ _ _ _ _ _ _ _ _ R) as [[l0 v0] Hl0].
      destruct (so_root _ _ _ _ _ _ _ _ _ _ HS _ _ _ _ _ Hs0) as (root & Er & Hroot).
      pose proof (so_size _ _ _ _ _ _ _ _ _ _ HS _ _ _ _ _ Hs0) as Hsz.
      unfold StatsP.ers in Hsz, Er. cbn [StatsP.er m_trie] in Hsz, Er.
      rewrite Hsz in E. rewrite (proj2 (N.eqb_neq _ 0)) in E.
      2:{ intros E0. assert (size loc = 0%nat) as Ez by (clear -E0; lia). apply map_size_empty_inv in Ez.
          rewrite Ez, lookup_empty in Hroot. discriminate. }
      cbn [resize_ops t_get_root] in E. rewrite Er, bind_ret in E.
      apply (loop_ret _ (fun st => upd_inv (ers s) S D M b loc lab k (erst TO NO full st) /\ (let '(m1, c1, _, _) := st in cnt c1 m1))
        (fun '(_, s') => cnt (sm_steps _ _ s') (sm_map _ _ s'))) in E; [exact E| |].
      + split; [|exact Hcnt]. exists [], l0, v0, b, loc. split; [clear; lia|]. split; [exact R|]. split; [apply kept_refl|].
        split; [exact Hroot|]. split; [exact Hl0|]. split.
        { right. split; [exact Hk|]. apply (dv_root _ _ HD l0 v0 Hl0). }
        split; [exists []; reflexivity|]. split; [reflexivity|]. auto.
      + clear E. intros [[[m1 c1] x] key] [Hinv Hc1].
        destruct (stats_update_body dbg TS NO (m1, c1, x, key)) as [y| | | |] eqn:Eb; try exact I.
        pose proof (body_count _ S D M b loc lab k m1 c1 x key y HD Hd Hb Hsm HB Hroom HS255 Hinv Hc1 Eb) as Hy.
        pose proof (er_body dbg TO NO full (m1, c1, x, key)) as E1. rewrite Eb, bind_ret in E1.
        pose proof (wpx_of_ret _ _ _ _ (update_body_ok dbg TO NO L mf e B stable srep sfresh npt HS He _ S D M b loc lab k HD Hd Hb Hsm HB Hroom HS255 _ Hinv) E1) as Hn.
        destruct y as [[[[m2 c2] x2] k2]|[r2 s2]]; [|exact Hy]. cbn beta iota in Hn. split; [apply Hn|exact Hy].
  Qed.

  Lemma run_count ops : forall s S D M b loc (A : gset N) xs s', minv (ers s) S D M b loc ->
    Forall (valid_op vs) ops -> (B = true -> Forall (fun k => k <> [0]) (updated ops)) ->
    S ⊆ A -> alphabet (updated ops) ⊆ A -> (size A <= 254)%nat ->
    node_bound e (dom M ∪ list_to_set (updated ops)) + 1 < l_max L ->
    cnt (sm_steps _ _ s) (sm_map _ _ s) -> stats_run dbg TS NO s ops = Ret (xs, s') -> cnt (sm_steps _ _ s') (sm_map _ _ s').
  Proof.
    induction ops as [|o ops IH]; intros s S D M b loc A xs s' Hi Hv HB HSA HAl HA4 Hroom Hcnt E.
    - cbn [stats_run] in E. injection E as _ <-. exact Hcnt.
    - cbn [stats_run] in E. apply bind_inv in E as ([x s1] & Eo & E). apply bind_inv in E as ([ys s2] & E & E2). injection E2 as _ <-.
      apply Forall_cons_1 in Hv as [Hv Hvs].
      assert (Hupd : updated (o :: ops) = updated [o] ++ updated ops) by (destruct o; reflexivity).
      rewrite Hupd in *.
      assert (HAl' : alphabet (updated [o]) ⊆ A /\ alphabet (updated ops) ⊆ A).
      { unfold alphabet in *. rewrite concat_app, list_to_set_app_L in HAl. clear -HAl. set_solver. }
      assert (HB' : (B = true -> Forall (fun k => k <> [0]) (updated [o])) /\ (B = true -> Forall (fun k => k <> [0]) (updated ops))).
      { split; intros Hb; specialize (HB Hb); apply Forall_app in HB; apply HB. }
      rewrite list_to_set_app_L in Hroom.
      assert (Hroom1 : node_bound e (dom M ∪ list_to_set (updated [o])) + 1 < l_max L).
      { revert Hroom. apply nb_room. clear. set_solver. }
      pose proof (run_ok dbg TO NO L mf e B stable srep sfresh npt HS He Hmf [o] (ers s) S D M b loc A Hi
        ltac:(constructor; [exact Hv|constructor]) (proj1 HB') HSA (proj1 HAl') HA4 Hroom1) as Hr.
      rewrite (er_run dbg TO NO full [o] s) in Hr. cbn [stats_run] in Hr. rewrite Eo, !bind_ret in Hr.
      destruct Hr as (_ & S1 & D1 & b1 & loc1 & _ & Hi1 & HS1). cbn [snd] in Hi1.
      assert (Hcnt1 : cnt (sm_steps _ _ s1) (sm_map _ _ s1)).
      { destruct o as [k w|k]; cbn [stats_step] in Eo.
        - apply bind_inv in Eo as ([r s3] & Eu & Eo). destruct Hv as (Hk & Hsm & Hw). destruct (valid_okey k Hk) as [Hok Hb].
          assert (Hc3 : cnt (sm_steps _ _ s3) (sm_map _ _ s3)).
          { apply (update_count s S D M b loc k r s3 Hi Hok Hb Hsm); [| | |exact Hcnt|exact Eu].
            - intros Hbt. pose proof (proj1 HB' Hbt) as H. apply Forall_cons_1 in H as [H _]. exact H.
            - revert Hroom. apply nb_room. clear. set_solver.
            - left. apply subseteq_size in HSA. lia. }
          destruct r as [[p|]|]; try discriminate. apply bind_inv in Eo as (v & _ & Eo). apply bind_inv in Eo as (m3 & Em & Eo).
          injection Eo as _ <-. unfold cnt in *. cbn [sm_steps sm_map].
          destruct w as [w|]; [|injection Em as <-; exact Hc3].
          unfold map_write in Em. apply bind_inv in Em as (h & _ & Em). injection Em as <-. exact Hc3.
        - apply bind_inv in Eo as ([p|] & _ & Eo); [apply bind_inv in Eo as (v & _ & Eo)|]; injection Eo as _ <-; exact Hcnt. }
      apply (IH s1 S1 D1 _ b1 loc1 A ys s2 Hi1 Hvs (proj2 HB') HS1 (proj2 HAl') HA4); [|exact Hcnt1|exact E].
      replace (dom (snd (spec_run vs M [o])) ∪ list_to_set (updated ops)) with (dom M ∪ (list_to_set (updated [o]) ∪ list_to_set (updated ops)) : gset (list N)); [exact Hroom|].
      destruct o as [k w|k]; cbn [spec_run spec_step snd updated].
      + rewrite dom_insert_L. clear. set_solver.
      + clear. set_solver.
  Qed.
End steps.

(** As [ipack] (InstP.v), for the label store with counters. *)
Definition lens_ok (TO : trie_ops) (NO : nlm_ops) (srep : N -> tT TO -> nT (length_ops NO) -> locmap -> labmap -> Prop)
  (sfresh : N -> tT TO -> nT (length_ops NO) -> Prop) : Prop :=
  (forall b t n loc lab, srep b t n loc lab -> labels_counted (snd n) lab) /\
  (forall b t n, sfresh b t n -> labels_counted (snd n) (∅ : labmap)).
Definition spack (TO : trie_ops) (NO : nlm_ops) (L : lims) (mf sb : N) (B : bool) : Prop :=
  exists (Q : Type) (stable : nT (length_ops NO) -> N -> Q -> Prop) srep sfresh npt,
    store_ok TO (length_ops NO) L mf sb B stable srep sfresh npt /\ adds_ok TO (length_ops NO) L sb srep /\ lens_ok TO NO srep sfresh.
Lemma bonsai_pack (TO : trie_ops) (NO : nlm_ops) (L : lims) (mf sb : N) rep fresh {Q} (stable : nT NO -> N -> Q -> Prop) nrep npt :
  bonsai_ok TO L mf sb rep fresh -> blnm_ok NO stable nrep npt -> spack TO NO L mf sb false.
Proof.
  intros HO HN. exists Q, (lstable NO stable). 
  exists (bsrep TO (length_ops NO) L mf rep (lrep NO nrep)), (bsfresh TO (length_ops NO) L fresh (lrep NO nrep)), (lnpt NO npt).
  split; [exact (bonsai_store_ok TO (length_ops NO) L mf sb (lstable NO stable) rep fresh (lrep NO nrep) (lnpt NO npt) HO (blnm_length NO stable nrep npt HN))|].
  split; [exact (bonsai_adds TO (length_ops NO) L mf sb rep fresh _ HO)|].
  split.
  - intros b t n loc lab (Hr & _ & m & [_ Hc] & Hl). apply (link_counted loc lab m _ Hl); [|exact Hc].
    intros q q' x. apply (bo_inj _ _ _ _ _ _ HO b t loc q q' x Hr).
  - intros b t n (_ & _ & _ & Hc). exact (counted_none _ Hc).
Qed.
Lemma fkhash_pack (TO : trie_ops) (NO : nlm_ops) (L : lims) (mf sb : N) B rep fresh {Q} (stable : nT NO -> N -> Q -> Prop) nrep npt :
  1 <= mf <= 99 -> fkhash_ok TO L mf sb B rep fresh -> flnm_ok NO stable nrep npt -> spack TO NO L mf sb B.
Proof.
  intros Hmf HO HN. exists Q, (lstable NO stable). 
  exists (fsrep TO (length_ops NO) L mf rep (lrep NO nrep)), (fsfresh TO (length_ops NO) L fresh (lrep NO nrep)), (lnpt NO npt).
  split; [exact (fkhash_store_ok TO (length_ops NO) L mf sb B (lstable NO stable) rep fresh (lrep NO nrep) (lnpt NO npt) Hmf HO (flnm_length NO stable nrep npt HN))|].
  split; [exact (fkhash_adds TO (length_ops NO) L mf sb B rep fresh _ HO)|].
  split.
  - intros b t n loc lab ([Hr _] & m & [_ Hc] & Hl). apply (link_counted loc lab m _ Hl); [|exact Hc].
    intros q q' x. apply (fo_inj _ _ _ _ _ _ _ HO b t loc q q' x Hr).
  - intros b t n (_ & _ & _ & Hc). exact (counted_none _ Hc).
Qed.
Lemma inst_spack dbg vs i e B0 T : valid_inst i -> (1 <= vs)%nat -> 16 <= B0 -> T <= node_limit (i_mf i) (8 + e) ->
  spack (i_trie dbg i) (i_nlm vs i) (i_lim i B0 T) (i_mf i) (8 + e) (i_traps dbg i).
Proof.
  intros Hv Hvs HB HT. pose proof (proj1 Hv) as Hmf. pose proof (valid_dp i) as HP.
  destruct i as [[H mf|H P mf|H mf|H P mf] [c|]]; cbn [i_mf i_par i_t] in *; try pose proof (valid_th H (proj2 (proj2 Hv))) as HTO.
  - exact (bonsai_pack (pb_ops mf) (cbn_ops (cs_val c) vs) _ mf (8 + e) _ _ _ _ _ (pb_ok mf (8 + e) Hmf _ T B0 HT (sb_pos e)) (cbn_ok (cs_val c) vs (chunk_width c))).
  - exact (bonsai_pack (pb_ops mf) (pbn_ops vs) _ mf (8 + e) _ _ _ _ _ (pb_ok mf (8 + e) Hmf _ T B0 HT (sb_pos e)) (pbn_ok vs)).
  - specialize (HP P Hv eq_refl). exact (bonsai_pack (cb_ops P mf) (cbn_ops (cs_val c) vs) _ mf (8 + e) _ _ _ _ _ (cb_ok P HP mf (8 + e) Hmf B0 T HB HT) (cbn_ok (cs_val c) vs (chunk_width c))).
  - specialize (HP P Hv eq_refl). exact (bonsai_pack (cb_ops P mf) (pbn_ops vs) _ mf (8 + e) _ _ _ _ _ (cb_ok P HP mf (8 + e) Hmf B0 T HB HT) (pbn_ok vs)).
  - exact (fkhash_pack (pf_ops dbg mf) (cfn_ops (cs_val c) vs) _ mf (8 + e) dbg _ _ _ _ _ Hmf (pf_ok mf (8 + e) Hmf _ T B0 dbg HT) (cfn_ok (cs_val c) vs (chunk_width c) Hvs)).
  - exact (fkhash_pack (pf_ops dbg mf) (pfn_ops vs) _ mf (8 + e) dbg _ _ _ _ _ Hmf (pf_ok mf (8 + e) Hmf _ T B0 dbg HT) (pfn_ok vs)).
  - specialize (HP P Hv eq_refl). exact (fkhash_pack (cf_ops P mf) (cfn_ops (cs_val c) vs) _ mf (8 + e) false _ _ _ _ _ Hmf (cf_ok P HP mf (8 + e) Hmf B0 T HB HT) (cfn_ok (cs_val c) vs (chunk_width c) Hvs)).
  - specialize (HP P Hv eq_refl). exact (fkhash_pack (cf_ops P mf) (pfn_ops vs) _ mf (8 + e) false _ _ _ _ _ Hmf (cf_ok P HP mf (8 + e) Hmf B0 T HB HT) (pfn_ok vs)).
Qed.

(** Without the counters of the trie, of the map and of the label store. *)
Definition ers_i dbg vs i (s : s_map dbg vs i) : map_st (i_trie dbg i) (s_nlm vs i) := ers (i_trie dbg i) (s_nlm vs i) (i_full dbg i) s.
Definition erl_i dbg vs i (s : s_map dbg vs i) : i_map dbg vs i := ln (i_trie dbg i) (i_nlm vs i) (ers_i dbg vs i s).
Lemma er_new_i dbg vs i cb lam : i_new dbg vs i cb lam = let* s := s_new dbg vs i cb lam in Ret (erl_i dbg vs i s).
Proof.
  unfold i_new. rewrite (ln_new (i_trie dbg i) (i_nlm vs i) cb lam), (er_new _ _ (i_full dbg i)).
  unfold s_new. destruct (stats_new _ _ cb lam) as [s| | | |]; reflexivity.
Qed.
Lemma er_run_i dbg vs i s ops : i_run dbg vs i (erl_i dbg vs i s) ops =
  let* r := s_run dbg vs i s ops in Ret (fst r, erl_i dbg vs i (snd r)).
Proof.
  unfold i_run, erl_i. rewrite (ln_run dbg (i_trie dbg i) (i_nlm vs i) ops). unfold ers_i. rewrite (er_run dbg).
  change (stats_run dbg _ _ s ops) with (s_run dbg vs i s ops).
  destruct (s_run dbg vs i s ops) as [[xs s']| | | |]; reflexivity.
Qed.
Lemma er_default_i dbg vs i : erl_i dbg vs i (s_default dbg vs i) = map_default (i_trie dbg i) (i_nlm vs i).
Proof. reflexivity. Qed.

(** What holds after every history. *)
Lemma i_stats_inv dbg vs i cb e ops s0 xs s : valid_inst i -> i_supported vs i cb e (updated ops) ->
  Forall (valid_op vs) ops -> i_no_trap dbg i (updated ops) ->
  s_new dbg vs i cb (2 ^ e) = Ret s0 -> s_run dbg vs i s0 ops = Ret (xs, s) ->
  s_num_steps dbg vs i s + s_size dbg vs i s = t_size (i_trie dbg i) (fst (m_trie _ _ (sm_map _ _ s))) /\
  s_sum_length dbg vs i s = label_total (final vs ops) mod 2 ^ 64 /\
  label_total (final vs ops) <= N.of_nat (size (final vs ops)) * s_max_length dbg vs i s /\
  s_max_length dbg vs i s <= longest (final vs ops).
Proof.
  intros Hvi Hsup Hv Hnt Es Er. destruct (i_supported_limit _ _ _ _ _ Hvi Hsup) as (He & Hcb & Hroom & _).
  pose proof (proj1 Hvi) as Hmf. pose proof Hsup as (Hvs & Hcb' & Hn & HA).
  assert (HB : 16 <= N.max 16 cb) by lia.
  destruct (inst_spack dbg vs i e (N.max 16 cb) (nodes_for e (updated ops) + 2) Hvi Hvs HB ltac:(lia)) as (Q & stable & srep & sfresh & npt & PK & HG & HL).
  destruct (map_new_ok _ _ _ _ _ _ _ _ _ _ PK He cb Hcb) as (m0 & E & Hf); [reflexivity|].
  pose proof (er_new (i_trie dbg i) (s_nlm vs i) (i_full dbg i) cb (2 ^ e)) as E1. change (stats_new _ _ cb (2 ^ e)) with (s_new dbg vs i cb (2 ^ e)) in E1.
  rewrite Es, bind_ret in E1. unfold s_nlm in E1. rewrite E in E1. injection E1 as ->.
  pose proof (mfresh_minv _ _ e srep sfresh _ _ Hf) as Hi.
  destruct (so_fresh _ _ _ _ _ _ _ _ _ _ PK _ _ _ (mf_store _ _ _ _ _ _ Hf)) as [Hsz _].
  pose proof (mf_size _ _ _ _ _ _ Hf) as Hms.
  assert (Hnvs : Forall (valid_op (n_vs (length_ops (i_nlm vs i)))) ops) by (cbn [length_ops n_vs]; rewrite i_vs; exact Hv).
  assert (Hroom2 : node_bound e (dom (∅ : dict) ∪ list_to_set (updated ops)) + 1 < l_max (i_lim i (N.max 16 cb) (nodes_for e (updated ops) + 2))).
  { cbn [i_lim l_max]. rewrite dom_empty_L, union_empty_l_L. unfold nodes_for. lia. }
  assert (HAl : {[ 0 ]} ⊆ alphabet (updated ops)) by (unfold alphabet; set_solver).
  split.
  - apply (run_count dbg _ _ _ _ e _ _ _ _ _ (i_full dbg i) PK He Hmf HG ops s0 {[ 0 ]} ∅ ∅ _ ∅ (alphabet (updated ops)) xs s Hi Hnvs (i_no_trap_forall _ _ _ Hnt) HAl ltac:(reflexivity) HA Hroom2); [|exact Er].
    unfold s_new, stats_new in Es. apply bind_inv in Es as (m1 & _ & Es). injection Es as <-.
    unfold cnt. unfold ers in Hsz, Hms. cbn [er m_trie m_size sm_map sm_steps] in *. rewrite Hsz, Hms. reflexivity.
  - pose proof (run_ok dbg _ _ _ _ e _ _ _ _ _ PK He Hmf ops _ {[ 0 ]} ∅ ∅ _ ∅ (alphabet (updated ops)) Hi Hnvs (i_no_trap_forall _ _ _ Hnt) HAl ltac:(reflexivity) HA Hroom2) as Hok.
    pose proof (er_run dbg (i_trie dbg i) (s_nlm vs i) (i_full dbg i) ops s0) as E2. change (stats_run dbg _ _ s0 ops) with (s_run dbg vs i s0 ops) in E2.
    rewrite Er, bind_ret in E2. unfold s_nlm in E2. rewrite E2 in Hok. cbn [fst snd] in Hok.
    destruct Hok as (_ & S1 & D1 & b1 & loc1 & _ & Hi1 & _). cbn [snd] in Hi1.
    change (n_vs (length_ops (i_nlm vs i))) with (n_vs (i_nlm vs i)) in Hi1. rewrite i_vs in Hi1. change (snd (spec_run vs ∅ ops)) with (final vs ops) in Hi1.
    destruct Hi1 as [(_ & EM & _ & _ & Hf1)|[lab R]].
    + pose proof (proj2 HL _ _ _ (mf_store _ _ _ _ _ _ Hf1)) as HC.
      destruct HC as (H1 & _ & [H2|(x & f & H2 & _)]); [|rewrite lookup_empty in H2; discriminate].
      rewrite msum_empty in H1. assert (E1 : s_sum_length dbg vs i s = 0) by exact H1. assert (E3 : s_max_length dbg vs i s = 0) by exact H2.
      rewrite E1, E3, EM.
      split; [reflexivity|]. split; vm_compute; discriminate.
    + pose proof (proj1 HL _ _ _ _ _ (mr_store _ _ _ _ _ _ _ _ _ _ _ R)) as HC.
      exact (lens_dict _ _ _ _ _ _ _ _ _ _ _ _ R HC).
Qed.
