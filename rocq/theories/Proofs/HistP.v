(** The histogram num_dsps_ of the compact tries. *)
From Verif.Model Require Export Histogram.
From Verif.Proofs Require Export StatsP TableHistP.
Local Open Scope N_scope.

(** ** A trie that keeps more than another one, and behaves like it *)
Record erases (TS TO : trie_ops) (pi : tT TS -> tT TO) : Prop := {
  es_kind : t_kind TS = t_kind TO;
  es_default : t_default TO = pi (t_default TS);
  es_new : forall cb sb, t_new TO cb sb = let* t := t_new TS cb sb in Ret (pi t);
  es_size : forall t, t_size TO (pi t) = t_size TS t;
  es_capa : forall t, t_capa TO (pi t) = t_capa TS t;
  es_root : forall t, t_get_root TO (pi t) = t_get_root TS t;
  es_add_root : forall t, t_add_root TO (pi t) = let* t := t_add_root TS t in Ret (pi t);
  es_find : forall t x s, t_find_child TO (pi t) x s = t_find_child TS t x s;
  es_add : forall t x s, t_add_child TO (pi t) x s =
    let* r := t_add_child TS t x s in let '(a, y, t') := r in Ret (a, y, pi t');
  es_needs : forall t, t_needs_to_expand TO (pi t) = t_needs_to_expand TS t;
  es_expand : forall t, t_expand TO (pi t) = let* r := t_expand TS t in Ret (fst r, pi (snd r)) }.

Section erase.
  Context (dbg : bool) (TS TO : trie_ops) (NO : nlm_ops) (pi : tT TS -> tT TO).
  Hypothesis HE : erases TS TO pi.
  Definition em (m : map_st TS NO) : map_st TO NO :=
    mkMap TO NO (m_ready _ _ m) (m_lambda _ _ m) (pi (m_trie _ _ m)) (m_nlm _ _ m) (m_codes _ _ m) (m_num_codes _ _ m) (m_size _ _ m).
  Definition ems (s : stats_map TS NO) : stats_map TO NO := mkStats TO NO (em (sm_map _ _ s)) (sm_steps _ _ s).

  Lemma em_new cb lam : stats_new TO NO cb lam = let* s := stats_new TS NO cb lam in Ret (ems s).
  Proof.
    unfold stats_new, map_new. destruct (throw_if _ _) as [[]| | | |]; try reflexivity. cbn [bind].
    destruct (ceil_log2 lam) as [cl| | | |]; try reflexivity. cbn [bind]. rewrite (es_new _ _ _ HE).
    destruct (t_new TS cb (8 + cl)) as [t| | | |]; try reflexivity. cbn [bind]. rewrite (es_capa _ _ _ HE).
    destruct (n_new NO _) as [n| | | |]; reflexivity.
  Qed.
  Hypothesis Hfind : forall m k, map_find dbg TO NO (em m) k = map_find dbg TS NO m k.
  Lemma em_expand x (t : tT TS) n : expand_if_needed TO NO x (pi t) n =
    let* r := expand_if_needed TS NO x t n in let '(x, t, n) := r in Ret (x, pi t, n).
  Proof.
    unfold expand_if_needed. rewrite <- (es_kind _ _ _ HE). destruct (t_kind TS); [|reflexivity].
    rewrite (es_needs _ _ _ HE). destruct (negb _); [reflexivity|]. rewrite (es_expand _ _ _ HE).
    destruct (t_expand TS t) as [[nm t']| | | |]; try reflexivity. cbn [bind fst snd].
    destruct (nm_get nm x) as [y| | | |]; try reflexivity. cbn [bind].
    destruct (n_expand NO n nm) as [n'| | | |]; reflexivity.
  Qed.
  Lemma em_step x (t : tT TS) n c : stats_add_step TO NO x (pi t) n c =
    let* r := stats_add_step TS NO x t n c in let '(x, t, n, c) := r in Ret (x, pi t, n, c).
  Proof.
    unfold stats_add_step. rewrite (es_add _ _ _ HE), <- (es_kind _ _ _ HE).
    destruct (t_add_child TS t x step_symb) as [[[a y] t']| | | |]; try reflexivity. cbn [bind].
    destruct a; [|reflexivity]. rewrite (em_expand y t' n).
    destruct (expand_if_needed TS NO y t' n) as [[[y2 t2] n2]| | | |]; try reflexivity. cbn [bind].
    destruct (t_kind TS); [reflexivity|].
    destruct (assert_ _) as [[]| | | |]; try reflexivity. cbn [bind].
    destruct (n_append_dummy NO n2) as [n3| | | |]; reflexivity.
  Qed.
  Definition emw (st : N * N * tT TS * nT NO * N) : N * N * tT TO * nT NO * N := let '(x, mt, t, n, c) := st in (x, mt, pi t, n, c).
  Lemma em_steps lam (t : tT TS) n x mt c : stats_update_steps TO NO lam (pi t) n x mt c =
    let* r := stats_update_steps TS NO lam t n x mt c in Ret (emw r).
  Proof.
    unfold stats_update_steps.
    change (x, mt, pi t, n, c) with (emw (x, mt, t, n, c)).
    apply (loop_sim (fun st : N * N * tT TS * nT NO * N => _) (fun st : N * N * tT TO * nT NO * N => _) emw emw).
    intros [[[[y m] t1] n1] c1]. unfold emw at 1. destruct (lam <=? m); [|reflexivity].
    rewrite (em_step y t1 n1 c1). destruct (stats_add_step TS NO _ _ _ _) as [[[[? ?] ?] ?]| | | |]; reflexivity.
  Qed.
  Lemma em_leaf x s k (t : tT TS) n : add_leaf TO NO x s k (pi t) n =
    let* r := add_leaf TS NO x s k t n in let '(o, x, t, n) := r in Ret (o, x, pi t, n).
  Proof.
    unfold add_leaf. rewrite (es_add _ _ _ HE), <- (es_kind _ _ _ HE).
    destruct (t_add_child TS t x s) as [[[a y] t']| | | |]; try reflexivity. cbn [bind].
    destruct a; [|reflexivity]. rewrite (em_expand y t' n).
    destruct (expand_if_needed TS NO y t' n) as [[[y2 t2] n2]| | | |]; try reflexivity. cbn [bind].
    destruct (t_kind TS).
    - destruct (n_insert NO n2 y2 k) as [[? ?]| | | |]; reflexivity.
    - destruct (assert_ _) as [[]| | | |]; try reflexivity. cbn [bind].
      destruct (n_append NO n2 k) as [[? ?]| | | |]; reflexivity.
  Qed.
  Lemma em_first k (t : tT TS) n : add_first TO NO k (pi t) n =
    let* r := add_first TS NO k t n in let '(p, t, n) := r in Ret (p, pi t, n).
  Proof.
    unfold add_first. rewrite (es_add_root _ _ _ HE), <- (es_kind _ _ _ HE).
    destruct (t_add_root TS t) as [t'| | | |]; try reflexivity. cbn [bind].
    destruct (t_kind TS).
    - rewrite (es_root _ _ _ HE). destruct (t_get_root TS t') as [r| | | |]; try reflexivity. cbn [bind].
      destruct (n_insert NO n r k) as [[? ?]| | | |]; reflexivity.
    - destruct (n_append NO n k) as [[? ?]| | | |]; reflexivity.
  Qed.
  Definition emsr (r : update_result * stats_map TS NO) : update_result * stats_map TO NO := (fst r, ems (snd r)).
  Definition emst (st : map_st TS NO * N * N * list N) : map_st TO NO * N * N * list N :=
    let '(m, c, x, k) := st in (em m, c, x, k).
  Lemma em_body st : stats_update_body dbg TO NO (emst st) =
    let* r := stats_update_body dbg TS NO st in Ret (match r with inl st => inl (emst st) | inr r => inr (emsr r) end).
  Proof.
    destruct st as [[[m c] x] k]. unfold stats_update_body, emst. cbn [em m_nlm m_lambda m_codes m_num_codes m_trie m_size m_ready].
    destruct k as [|c0 k].
    { destruct (n_compare NO _ x []) as [[]| | | |]; reflexivity. }
    destruct (n_compare NO _ x (c0 :: k)) as [[[p|] mt]| | | |]; try reflexivity. cbn [bind]. cbv zeta.
    rewrite (em_steps _ _ _ x mt c).
    destruct (stats_update_steps TS NO _ _ _ x mt c) as [[[[[y mt'] t] n] c']| | | |]; try reflexivity. cbn [bind].
    destruct (deref _) as [ch| | | |]; try reflexivity. cbn [bind].
    destruct (vget _ ch) as [code| | | |]; try reflexivity. cbn [bind].
    match goal with |- context [bind (if ?b then ?u else ?v) _] => destruct (if b then u else v) as [[[codes nc] th]| | | |]; try reflexivity end.
    cbn [bind emw]. destruct th; [reflexivity|].
    destruct (make_symb dbg codes ch mt') as [symb| | | |]; try reflexivity. cbn [bind].
    rewrite (em_leaf y symb _ t n).
    destruct (add_leaf TS NO y symb _ t n) as [[[[[p|] z] t2] n2]| | | |]; reflexivity.
  Qed.
  Lemma em_update s k : stats_update dbg TO NO (ems s) k = let* r := stats_update dbg TS NO s k in Ret (emsr r).
  Proof.
    unfold stats_update. destruct (check_key k) as [[]| | | |]; try reflexivity. cbn [bind].
    change (m_trie _ _ (sm_map _ _ (ems s))) with (pi (m_trie _ _ (sm_map _ _ s))). rewrite (es_size _ _ _ HE).
    destruct (t_size TS _ =? 0).
    - assert (E : (if negb (m_ready TO NO (sm_map _ _ (ems s))) then stats_new TO NO 0 32 else Ret (ems s)) =
        let* s := (if negb (m_ready TS NO (sm_map _ _ s)) then stats_new TS NO 0 32 else Ret s) in Ret (ems s)).
      { change (m_ready TO NO (sm_map _ _ (ems s))) with (m_ready TS NO (sm_map _ _ s)). destruct (negb _); [apply em_new|reflexivity]. }
      rewrite E. clear E. destruct (if negb (m_ready TS NO (sm_map TS NO s)) then stats_new TS NO 0 32 else Ret s) as [s1| | | |]; try reflexivity.
      cbn [bind]. cbv zeta. cbn [ems em m_nlm m_lambda m_codes m_num_codes m_trie m_size m_ready sm_map sm_steps].
      rewrite (em_first k (m_trie _ _ (sm_map _ _ s1))).
      destruct (add_first TS NO k _ _) as [[[p t] n]| | | |]; reflexivity.
    - rewrite (es_root _ _ _ HE).
      destruct (t_get_root TS _) as [root| | | |]; try reflexivity. cbn [bind].
      change (sm_map _ _ (ems s), sm_steps _ _ (ems s), root, k) with (emst (sm_map _ _ s, sm_steps _ _ s, root, k)).
      apply (loop_sim (stats_update_body dbg TS NO) (stats_update_body dbg TO NO) emst emsr). apply em_body.
  Qed.
  Lemma em_run ops : forall s, stats_run dbg TO NO (ems s) ops = let* r := stats_run dbg TS NO s ops in Ret (fst r, ems (snd r)).
  Proof.
    induction ops as [|o ops IH]; intros s; [reflexivity|]. cbn [stats_run].
    assert (E : stats_step dbg TO NO (ems s) o = let* r := stats_step dbg TS NO s o in Ret (fst r, ems (snd r))).
    { destruct o as [k w|k]; unfold stats_step.
      - rewrite em_update. destruct (stats_update dbg TS NO s k) as [[[[p|]|x] s1]| | | |]; try reflexivity. cbn [bind emsr fst snd].
        change (map_read TO NO (sm_map _ _ (ems s1)) p) with (map_read TS NO (sm_map _ _ s1) p).
        destruct (map_read TS NO _ p) as [v| | | |]; try reflexivity. cbn [bind]. destruct w as [w|]; [|reflexivity].
        unfold map_write. change (n_heap NO (m_nlm TO NO (sm_map _ _ (ems s1)))) with (n_heap NO (m_nlm TS NO (sm_map _ _ s1))).
        destruct (hp_write _ p w) as [h| | | |]; reflexivity.
      - change (sm_map TO NO (ems s)) with (em (sm_map TS NO s)). rewrite Hfind.
        destruct (map_find dbg TS NO _ k) as [[p|]| | | |]; try reflexivity. cbn [bind].
        change (map_read TO NO (em (sm_map _ _ s)) p) with (map_read TS NO (sm_map _ _ s) p).
        destruct (map_read TS NO _ p) as [v| | | |]; reflexivity. }
    rewrite E. destruct (stats_step dbg TS NO s o) as [[x s1]| | | |]; try reflexivity. cbn [bind fst snd].
    rewrite IH. destruct (stats_run dbg TS NO s1 ops) as [[xs s2]| | | |]; reflexivity.
  Qed.
End erase.

(** ** The histogram changes nothing *)
Lemma for_range_sim {S S'} a b (f : N -> S -> outcome S) (g : N -> S' -> outcome S') (pi : S -> S') s :
  (forall i s, g i (pi s) = let* r := f i s in Ret (pi r)) ->
  for_range a b g (pi s) = let* r := for_range a b f s in Ret (pi r).
Proof.
  intros H. rewrite !for_range_unfold.
  change (a, pi s) with ((fun st : N * S => (fst st, pi (snd st))) (a, s)).
  apply (loop_sim _ _ (fun st : N * S => (fst st, pi (snd st))) pi). intros [i s1]. cbn [fst snd].
  destruct (i <? b); [|reflexivity]. rewrite H. destruct (f i s1) as [s2| | | |]; reflexivity.
Qed.
Lemma replay_sim {T T' MS} (add : T -> N -> N -> outcome (bool * N * T)) (add' : T' -> N -> N -> outcome (bool * N * T')) (pi : T -> T')
  (setm : MS -> N -> N -> outcome MS) :
  (forall t x s, add' (pi t) x s = let* r := add t x s in let '(a, y, t') := r in Ret (a, y, pi t')) ->
  forall path x ms done t, bonsai_replay add' setm path x ms done (pi t) =
    let* r := bonsai_replay add setm path x ms done t in Ret (fst r, pi (snd r)).
Proof.
  intros H path. induction path as [|[o l] path IH]; intros x ms done t; cbn [bonsai_replay]; [reflexivity|].
  rewrite H. destruct (add t x l) as [[[a y] t1]| | | |]; try reflexivity. cbn [bind].
  destruct (setm ms o y) as [ms1| | | |]; try reflexivity. cbn [bind].
  destruct (bv_set done o true) as [d1| | | |]; try reflexivity. cbn [bind]. apply IH.
Qed.
Lemma remap_sim {T T' MS} start size (emp : MS -> N -> outcome bool) gp getm setm
  (add : T -> N -> N -> outcome (bool * N * T)) (add' : T' -> N -> N -> outcome (bool * N * T')) (pi : T -> T') ms done t :
  (forall t x s, add' (pi t) x s = let* r := add t x s in let '(a, y, t') := r in Ret (a, y, pi t')) ->
  bonsai_remap start size emp gp getm setm add' (ms, done, pi t) =
    let* r := bonsai_remap start size emp gp getm setm add (ms, done, t) in Ret (fst r, pi (snd r)).
Proof.
  intros H. unfold bonsai_remap.
  change (ms, done, pi t) with ((fun st : MS * bit_vector * T => (fst st, pi (snd st))) (ms, done, t)).
  apply (for_range_sim _ _ _ _ (fun st : MS * bit_vector * T => (fst st, pi (snd st)))).
  intros i [[ms1 d1] t1]. cbn [fst snd].
  destruct (bv_get d1 i) as [d| | | |]; try reflexivity. cbn [bind]. destruct d; [reflexivity|].
  destruct (emp ms1 i) as [e| | | |]; try reflexivity. cbn [bind]. destruct e; [reflexivity|].
  destruct (bonsai_climb _ _ i) as [[path nd]| | | |]; try reflexivity. cbn [bind].
  destruct (getm ms1 nd) as [nn| | | |]; try reflexivity. cbn [bind]. apply (replay_sim add add' pi setm H).
Qed.

Section same.
  Context {H : trie_hashers} (P : dsp_params) (mf : N).
  Definition unh {T} (r : bool * N * (T * hist)) : bool * N * T := (fst r, fst (snd r)).
  Lemma cbh_add_same th x s : cb_add_child P (fst th) x s = let* r := cbh_add_child P th x s in let '(a, y, th') := r in Ret (a, y, fst th').
  Proof.
    destruct th as [t h]. unfold cb_add_child, cbh_add_child. cbn [fst]. cbv zeta.
    destruct (assert_ _) as [[]| | | |]; try reflexivity. cbn [bind].
    destruct (assert_ _) as [[]| | | |]; try reflexivity. cbn [bind].
    destruct (hasher_hash _ _) as [k| | | |]; try reflexivity. cbn [bind].
    destruct (dt_decompose _ k) as [quo md].
    match goal with |- loop ?g ?st = bind (loop ?f _) _ => set (G := g); set (F := f);
      assert (E : loop G ((fun z : N * N => z) st) = let* r := loop F st in Ret (unh r)) end.
    { apply (loop_sim F G (fun z : N * N => z) unh). intros [i cnt]. unfold F, G.
      destruct (cb_get_root t) as [root| | | |]; try reflexivity. cbn [bind].
      destruct (i =? root); [reflexivity|]. destruct (dt_compare_dsp _ _ i 0) as [e| | | |]; try reflexivity. cbn [bind]. destruct e.
      - destruct (cb_size t =? cb_max t); [reflexivity|]. destruct (dt_update_slot _ _ _ _ _) as [d| | | |]; reflexivity.
      - destruct (dt_compare_dsp _ _ i cnt) as [c| | | |]; try reflexivity. cbn [bind]. destruct c; [|reflexivity].
        destruct (dt_get_quo _ _ i) as [q| | | |]; try reflexivity. cbn [bind]. destruct (quo =? q); reflexivity. }
    rewrite E. destruct (loop F _) as [[[a y] th']| | | |]; reflexivity.
  Qed.
  Lemma cbh_expand_same t : cb_expand P mf t = let* r := cbh_expand P mf t in Ret (fst r, fst (snd r)).
  Proof.
    unfold cb_expand, cbh_expand. cbv zeta.
    destruct (cb_new _ _ _ _ _) as [t0| | | |]; try reflexivity. cbn [bind].
    destruct (cb_add_root t0) as [t1| | | |]; try reflexivity. cbn [bind].
    destruct (cb_get_root t) as [root| | | |]; try reflexivity. cbn [bind].
    destruct (bv_set _ root true) as [done| | | |]; try reflexivity. cbn [bind].
    destruct (p2_new _) as [low| | | |]; try reflexivity. cbn [bind].
    match goal with |- context [bind (if ?b then ?u else ?v) _] => destruct (if b then u else v) as [high| | | |]; try reflexivity end.
    cbn [bind].
    pose proof (remap_sim 1 (cv_size (dt_table (cb_dt t)))
        (fun st i => dt_compare_dsp P (dt_with_table (cb_dt t) (fst st)) i 0)
        (fun st i => cb_gp P (dt_with_table (cb_dt t) (fst st)) i)
        (cb_get_mapping low) (cb_set_mapping low) (cbh_add_child P) (cb_add_child P) fst (dt_table (cb_dt t), high) done (t1, hist_zero)
        cbh_add_same) as E. cbn [fst] in E. rewrite E. clear E.
    destruct (bonsai_remap _ _ _ _ _ _ _ _) as [[[[tb hi] d] nt]| | | |]; reflexivity.
  Qed.
  Lemma cfh_expand_same t : cf_expand P mf t = let* r := cfh_expand P mf t in Ret (fst r).
  Proof.
    unfold cf_expand, cfh_expand. cbv zeta.
    destruct (cf_new _ _ _ _ _) as [t0| | | |]; try reflexivity. cbn [bind].
    match goal with |- bind (for_range ?a ?b ?g _) _ = bind (bind (for_range _ _ ?f _) _) _ => set (G := g); set (F := f);
      assert (E : for_range a b G (fst (t0, hist_zero)) = let* r := for_range a b F (t0, hist_zero) in Ret (fst r)) end.
    { apply (for_range_sim _ _ F G fst). intros i [nt h]. unfold F, G. cbn [fst]. clear F G.
      destruct (cv_get _ i) as [nd| | | |]; try reflexivity. cbn [bind]. destruct (nd =? _); [reflexivity|].
      destruct (dt_get_dsp _ _ i) as [ds| | | |]; try reflexivity. cbn [bind].
      destruct (dt_get_quo _ _ i) as [q| | | |]; try reflexivity. cbn [bind].
      destruct (hasher_hash_inv _ _) as [key| | | |]; try reflexivity. cbn [bind].
      destruct (hasher_hash _ key) as [x| | | |]; try reflexivity. cbn [bind].
      destruct (dt_decompose _ x) as [quo md].
      match goal with |- loop ?g ?st = bind (loop ?f _) _ => set (G := g); set (F := f);
        apply (loop_sim F G (fun z : N * N => z) fst) end.
      intros [j cnt]. unfold F, G. destruct (cv_get _ j) as [c| | | |]; try reflexivity. cbn [bind].
      destruct (c =? _); [|reflexivity]. destruct (cf_update_slot _ _ _ _ _ _) as [n| | | |]; reflexivity. }
    cbn [fst] in E. rewrite E. destruct (for_range _ _ F _) as [[nt h]| | | |]; reflexivity.
  Qed.
  Lemma cfh_add_same th x s : cf_add_child P mf (fst th) x s = let* r := cfh_add_child P mf th x s in let '(a, y, th') := r in Ret (a, y, fst th').
  Proof.
    destruct th as [t0 h0]. unfold cf_add_child, cfh_add_child. cbn [fst]. cbv zeta.
    destruct (assert_ _) as [[]| | | |]; try reflexivity. cbn [bind].
    destruct (assert_ _) as [[]| | | |]; try reflexivity. cbn [bind].
    assert (E0 : (if cf_max t0 <=? cf_size t0 then cf_expand P mf t0 else Ret t0) =
      let* r := (if cf_max t0 <=? cf_size t0 then cfh_expand P mf t0 else Ret (t0, h0)) in Ret (fst r)).
    { destruct (_ <=? _); [apply cfh_expand_same|reflexivity]. }
    rewrite E0. clear E0.
    destruct (if cf_max t0 <=? cf_size t0 then cfh_expand P mf t0 else Ret (t0, h0)) as [[t h]| | | |]; try reflexivity. cbn [bind fst].
    destruct (hasher_hash _ _) as [k| | | |]; try reflexivity. cbn [bind].
    destruct (dt_decompose _ k) as [quo md].
    match goal with |- loop ?g ?st = bind (loop ?f _) _ => set (G := g); set (F := f);
      assert (E : loop G ((fun z : N * N => z) st) = let* r := loop F st in Ret (unh r)) end.
    { apply (loop_sim F G (fun z : N * N => z) unh). intros [i cnt]. unfold F, G.
      destruct (cv_get _ i) as [c| | | |]; try reflexivity. cbn [bind]. destruct (c =? _).
      - destruct (cf_update_slot _ _ _ _ _ _) as [n| | | |]; reflexivity.
      - destruct (dt_compare_dsp _ _ i cnt) as [e| | | |]; try reflexivity. cbn [bind]. destruct e; [|reflexivity].
        destruct (dt_get_quo _ _ i) as [q| | | |]; try reflexivity. cbn [bind]. destruct (quo =? q); reflexivity. }
    rewrite E. destruct (loop F _) as [[[a y] th']| | | |]; reflexivity.
  Qed.
  Lemma cbh_exp_same (t : cb_trie * hist) : t_expand (cb_ops P mf) (fst t) = let* r := t_expand (cbh_ops P mf) t in Ret (fst r, fst (snd r)).
  Proof.
    destruct t as [t h]. cbn [cb_ops cbh_ops hist_ops t_expand fst]. rewrite (cbh_expand_same t).
    destruct (cbh_expand P mf t) as [[nm t']| | | |]; reflexivity.
  Qed.
End same.

Lemma hist_erases TO add exp :
  (forall t x s, t_add_child TO (fst t) x s = let* r := add t x s in let '(a, y, t') := r in Ret (a, y, fst t')) ->
  (forall t, t_expand TO (fst t) = let* r := exp t in Ret (fst r, fst (snd r))) ->
  erases (hist_ops TO add exp) TO fst.
Proof.
  intros Ha Hx. constructor; try (intros; reflexivity); cbn [hist_ops tT t_new t_add_root t_add_child t_expand]; auto.
  - intros cb sb. destruct (t_new TO cb sb); reflexivity.
  - intros t. destruct (t_add_root TO (fst t)); reflexivity.
Qed.
Lemma resize_erases (TS TO : trie_ops) pi full : erases TS TO pi ->
  erases (resize_ops TS (fun t => full (pi t))) (resize_ops TO full) (fun t => (pi (fst t), snd t)).
Proof.
  intros HE. constructor; cbn [resize_ops tT t_kind t_default t_new t_size t_capa t_get_root t_add_root t_find_child t_add_child t_needs_to_expand t_expand fst snd].
  - apply HE.
  - rewrite (es_default _ _ _ HE). reflexivity.
  - intros cb sb. rewrite (es_new _ _ _ HE). destruct (t_new TS cb sb); reflexivity.
  - intros t. apply HE.
  - intros t. apply HE.
  - intros t. apply HE.
  - intros t. rewrite (es_add_root _ _ _ HE). destruct (t_add_root TS (fst t)); reflexivity.
  - intros t x s. apply HE.
  - intros t x s. rewrite (es_add _ _ _ HE). destruct (t_add_child TS (fst t) x s) as [[[a y] t']| | | |]; reflexivity.
  - intros t. apply HE.
  - intros t. rewrite (es_expand _ _ _ HE). destruct (t_expand TS (fst t)) as [[nm t']| | | |]; reflexivity.
Qed.
Lemma no_hist_add_same TO t x s : t_add_child TO (fst t) x s = let* r := no_hist_add TO t x s in let '(a, y, t') := r in Ret (a, y, fst t').
Proof. unfold no_hist_add. destruct (t_add_child TO (fst t) x s) as [[[a y] t']| | | |]; reflexivity. Qed.
Lemma no_hist_expand_same TO t : t_expand TO (fst t) = let* r := no_hist_expand TO t in Ret (fst r, fst (snd r)).
Proof. unfold no_hist_expand. destruct (t_expand TO (fst t)) as [[nm t']| | | |]; reflexivity. Qed.
Lemma h_base_erases dbg i : erases (h_base dbg i) (i_trie dbg i) fst.
Proof.
  apply hist_erases; destruct i as [[H mf|H P mf|H mf|H P mf] l].
  - exact (no_hist_add_same _).
  - intros t x s. apply cbh_add_same.
  - exact (no_hist_add_same _).
  - intros t x s. apply cfh_add_same.
  - exact (no_hist_expand_same _).
  - exact (cbh_exp_same P mf).
  - exact (no_hist_expand_same _).
  - intros t. reflexivity.
Qed.
Lemma h_erases dbg i : erases (h_trie dbg i) (s_trie dbg i) (fun t => (fst (fst t), snd t)).
Proof. exact (resize_erases (h_base dbg i) (i_trie dbg i) fst (i_full dbg i) (h_base_erases dbg i)). Qed.
Lemma h_new_same dbg vs i cb lam : s_new dbg vs i cb lam = let* s := h_new dbg vs i cb lam in Ret (h_rest dbg vs i s).
Proof. exact (em_new (h_trie dbg i) (s_trie dbg i) (s_nlm vs i) _ (h_erases dbg i) cb lam). Qed.
Lemma h_run_same dbg vs i s ops : s_run dbg vs i (h_rest dbg vs i s) ops =
  let* r := h_run dbg vs i s ops in Ret (fst r, h_rest dbg vs i (snd r)).
Proof.
  exact (em_run dbg (h_trie dbg i) (s_trie dbg i) (s_nlm vs i) _ (h_erases dbg i) (fun m k => eq_refl) ops s).
Qed.
Lemma h_default_same dbg vs i : h_rest dbg vs i (h_default dbg vs i) = s_default dbg vs i.
Proof. reflexivity. Qed.

(** ** What is counted: an invariant of the runs that return *)
Lemma for_range_ret_i {S} a b (body : N -> S -> outcome S) s r (I : N -> S -> Prop) : I a s -> a <= b ->
  (forall i s s', a <= i < b -> I i s -> body i s = Ret s' -> I (i + 1) s') -> for_range a b body s = Ret r -> I b r.
Proof.
  intros Hs Hab Hb E. rewrite for_range_unfold in E.
  apply (loop_ret _ (fun st => a <= fst st <= b /\ I (fst st) (snd st)) (I b)) in E; [exact E|cbn [fst snd]; split; [lia|exact Hs]|].
  intros [i s1] [H1 H2]. cbn [fst snd] in *. destruct (N.ltb_spec i b) as [H3|H3].
  - destruct (body i s1) as [s2| | | |] eqn:Eb; cbn [bind]; try exact Logic.I. cbn [fst snd]. split; [lia|].
    apply (Hb i s1 s2); [lia|exact H2|exact Eb].
  - replace b with i by lia. exact H2.
Qed.

Section counts.
  Context {HT : trie_hashers} {HO : th_ok HT}.
  Local Existing Instance th_map.
  Context (P : dsp_params).
  Hypothesis HP : dp_ok P.
  Notation d1 := (dp_d1 P).
  Notation vb := (dp_vb P).

  (** The auxiliary tables of [d] hold [n1] and [n2] entries, all of slots in use. *)
  Record dtk (b sb : N) (d : dsp_table) (n1 n2 : N) : Prop := {
    dk_shape : dt_shape P b sb d;
    dk_aux : exists mc ms, ch_inv vb (dp_cmf P) b (dt_cht d) mc /\ st_snug (dp_smf P) (dt_map d) ms /\
      N.of_nat (size mc) = n1 /\ N.of_nat (size ms) = n2 /\
      (forall j, is_Some (mc !! j) \/ is_Some (ms !! j) -> j < 2 ^ b /\ cv_val (dt_table d) j <> 0) }.
  Lemma dtk_sizes b sb d n1 n2 : dtk b sb d n1 n2 -> ch_size (dt_cht d) = n1 /\ st_size (dt_map d) = n2 /\ n1 <= 2 ^ b /\ n2 <= 2 ^ b.
  Proof.
    intros [Hs (mc & ms & H1 & H2 & H3 & H4 & H5)]. pose proof (do_vb _ HP). pose proof (do_cmf _ HP).
    pose proof (ds_b _ _ _ _ Hs).
    split; [|split; [|split]].
    - rewrite <- H3. apply (inv_size _ _ _ _ _ H1).
    - rewrite <- H4. apply (st_size_spec (dp_smf P)), st_snug_ok, H2.
    - rewrite <- H3. apply size_below. intros k v Hk. apply H5. left. eauto.
    - rewrite <- H4. apply size_below. intros k v Hk. apply H5. right. eauto.
  Qed.

  Definition tot (h : hist) : N := let '(a, b, c) := h in a + b + c.
  Lemma i_not_max b i : i < 2 ^ b -> b <= 56 -> i <> UINT64_MAX.
  Proof.
    intros Hi Hb. pose proof (pow2_le b 56 Hb) as H. change (2 ^ 56) with 72057594037927936 in H. unfold UINT64_MAX. lia.
  Qed.
  Lemma dtk_update b sb d h i quo dsp d' : dtk b sb d (snd (fst h)) (snd h) -> i < 2 ^ b -> dsp < 2 ^ 64 -> tot h + 1 < 2 ^ 64 ->
    dt_update_slot P d i quo dsp = Ret d' ->
    dtk b sb d' (snd (fst (count_dsp P h dsp))) (snd (count_dsp P h dsp)) /\ tot (count_dsp P h dsp) = tot h + 1.
  Proof.
    destruct h as [[n0 n1] n2]. cbn [fst snd tot]. intros [Hs (mc & ms & Hc & Hm & En1 & En2 & Hkey)] Hi Hd Htot E.
    pose proof (do_d1 _ HP) as H1. pose proof (do_vb _ HP) as H2. pose proof (do_cmf _ HP) as H3. pose proof (do_smf _ HP) as H4.
    pose proof (ds_b _ _ _ _ Hs) as Hb. pose proof (ds_sb _ _ _ _ Hs) as Hsb.
    assert (Ha64 : forall n, n + 1 < 2 ^ 64 -> add64 n 1 = n + 1). { intros n Hn. unfold add64. apply w64_small. exact Hn. }
    pose proof (d1_small P HP) as Hs1. pose proof (vb_small P HP) as Hs2. pose proof (d1_pos P HP) as Hp1.
    assert (Em : add64 (N.ones d1) (N.ones vb) = N.ones d1 + N.ones vb).
    { unfold add64. apply w64_small. change (2 ^ 64) with (2 ^ 16 * 2 ^ 48). change (2 ^ 48) with 281474976710656. lia. }
    unfold count_dsp. rewrite (d1m P HP), (d2m P HP), Em.
    unfold dt_update_slot in E. rewrite cv_get_ok in E; [|apply Hs|rewrite (ds_size _ _ _ _ Hs); exact Hi]. rewrite bind_ret in E.
    apply bind_inv in E as ([] & E0 & E). apply bind_inv in E as ([] & Eq & E).
    assert (Hx : cv_val (dt_table d) i = 0).
    { unfold assert_ in E0. destruct (N.eqb_spec (cv_val (dt_table d) i) 0); [assumption|discriminate]. }
    assert (Hq : quo < 2 ^ sb).
    { rewrite (ds_symb _ _ _ _ Hs), p2_size_ones in Eq by lia. unfold assert_ in Eq. destruct (N.ltb_spec quo (2 ^ sb)); [assumption|discriminate]. }
    clear E0 Eq. cbv zeta in E. rewrite (d1m P HP), (d2m P HP) in E.
    assert (Hq2 : quo * 2 ^ d1 + 2 ^ d1 <= 2 ^ (sb + d1)).
    { rewrite N.pow_add_r. replace (quo * 2 ^ d1 + 2 ^ d1) with ((quo + 1) * 2 ^ d1) by lia. apply N.mul_le_mono_r. lia. }
    assert (Hw : 2 ^ (sb + d1) <= 2 ^ 63) by (apply pow2_le; pose proof (ds_wf _ _ _ _ Hs) as Hwf; pose proof (ds_width _ _ _ _ Hs) as Hwd; lia).
    rewrite shl_mul in E. 2:{ change (2 ^ 64) with (2 ^ 63 * 2). pose proof (pow2_pos d1). lia. }
    assert (Hno : mc !! i = None /\ ms !! i = None).
    { split; apply eq_None_not_Some; intros Hsome; apply (proj2 (Hkey i ltac:(auto)) Hx). }
    destruct Hno as [Hmc Hms].
    set (l := N.min dsp (N.ones d1)) in *.
    assert (Hl : l < 2 ^ d1). { unfold l. rewrite N.ones_equiv. pose proof (pow2_pos d1). lia. }
    set (y := quo * 2 ^ d1 + l).
    assert (Hym : y mod 2 ^ d1 = l). { unfold y. rewrite N.add_comm, N.mod_add, N.mod_small by lia. reflexivity. }
    destruct (cv_set_ok (dt_table d) i y (ds_wf _ _ _ _ Hs)) as (tab & Et & Hwf & Hcs & Hcw & Hval).
    { rewrite (ds_size _ _ _ _ Hs). exact Hi. }
    { rewrite (ds_width _ _ _ _ Hs). unfold y. lia. }
    rewrite (ds_size _ _ _ _ Hs) in Hval.
    assert (Hshape : forall c m, dt_shape P b sb (dt_with_table (mkDT (dt_hasher d) (dt_table d) c m (dt_capa d) (dt_symb d)) tab)).
    { intros c m. destruct Hs. split; cbn; auto; congruence. }
    destruct (N.ltb_spec dsp (N.ones d1)) as [Hlt|Hge].
    - assert (El : l = dsp) by (unfold l; lia).
      rewrite bind_ret in E. rewrite lor_add_disjoint in E by (rewrite <- El; exact Hl). rewrite <- El in E. fold y in E.
      rewrite Et, bind_ret in E. injection E as <-. cbn [fst snd tot]. rewrite Ha64 by lia. split; [|lia].
      split; [specialize (Hshape (dt_cht d) (dt_map d)); destruct d; exact Hshape|]. exists mc, ms. cbn [dt_with_table dt_cht dt_map dt_table].
      split; [exact Hc|]. split; [exact Hm|]. split; [exact En1|]. split; [exact En2|].
      intros j Hj. destruct (Hkey j Hj) as [Hj1 Hj2]. split; [exact Hj1|]. rewrite Hval by exact Hj1.
      destruct (N.eqb_spec j i) as [->|]; [contradiction|exact Hj2].
    - assert (El : l = N.ones d1) by (unfold l; lia).
      assert (Hy0 : y <> 0). { intros Hy. rewrite Hy, N.mod_0_l in Hym by (apply N.pow_nonzero; discriminate). lia. }
      rewrite lor_add_disjoint in E by (rewrite <- El; exact Hl). assert (Ey : quo * 2 ^ d1 + N.ones d1 = y) by (unfold y; rewrite El; reflexivity). rewrite Ey in E.
      assert (Hsub : sub64 dsp (N.ones d1) = dsp - N.ones d1). { apply SelectP.sub64_small; [exact Hge|exact Hd]. }
      rewrite Hsub in E.
      assert (Hkey' : forall j, j = i \/ is_Some (mc !! j) \/ is_Some (ms !! j) -> j < 2 ^ b /\ cv_val tab j <> 0).
      { intros j [->|Hj].
        - split; [exact Hi|]. rewrite Hval, N.eqb_refl by exact Hi. exact Hy0.
        - destruct (Hkey j Hj) as [Hj1 Hj2]. split; [exact Hj1|]. rewrite Hval by exact Hj1.
          destruct (N.eqb_spec j i); [exact Hy0|exact Hj2]. }
      destruct (N.ltb_spec (dsp - N.ones d1) (N.ones vb)) as [Hlt2|Hge2].
      + destruct (N.lt_ge_cases (N.of_nat (size mc)) (max_size_of (2 ^ b) (dp_cmf P))) as [Hroom|Hfull].
        * destruct (@set_spec _ (@th_cht_ok _ HO) vb (dp_cmf P) ltac:(lia) H3 b (fits_b P HP b Hb) 62 (dt_cht d) mc i (dsp - N.ones d1) Hc Hi Hlt2 Hroom)
            as (c' & Ec & Hc').
          unfold ch_set in E. change 64%nat with (S (S 62)) in E. rewrite Ec, !bind_ret in E. cbn [snd dt_table] in E.
          rewrite Et, bind_ret in E. injection E as <-.
          rewrite (proj2 (N.ltb_lt dsp (N.ones d1 + N.ones vb))) by lia. cbn [fst snd tot]. rewrite Ha64 by lia. split; [|lia].
          split; [apply Hshape|]. exists (<[i := dsp - N.ones d1]> mc), ms. cbn [dt_with_table dt_cht dt_map dt_table].
          split; [exact Hc'|]. split; [exact Hm|]. split; [rewrite map_size_insert, Hmc; clear -En1; cbn; lia|]. split; [exact En2|].
          intros j [Hj|Hj]; apply Hkey'; [|auto]. destruct (N.eq_dec j i) as [->|Hne]; [auto|].
          rewrite lookup_insert_ne in Hj by congruence. auto.
        * unfold ch_set in E. change 64%nat with (S 63) in E.
          rewrite (@set_full th_cht vb (dp_cmf P) ltac:(lia) H3 b (fits_b P HP b Hb) 63 (dt_cht d) mc i (dsp - N.ones d1) Hc Hi Hlt2 Hfull) in E.
          discriminate E.
      + destruct (st_set_snug (dp_smf P) (dt_map d) ms i dsp) as (m' & Em2 & Hm').
        { lia. } { exact Hm. } { apply (i_not_max b i Hi). lia. }
        { pose proof (size_below ms (2 ^ b) (fun k v Hk => proj1 (Hkey k (or_intror (ex_intro _ v Hk))))). pose proof (std_room (dp_smf P) H4).
          pose proof (pow2_le b 56 ltac:(lia)). lia. }
        rewrite Em2, !bind_ret in E. cbn [snd dt_table] in E. rewrite Et, bind_ret in E. injection E as <-.
        rewrite (proj2 (N.ltb_ge dsp (N.ones d1 + N.ones vb))) by lia. cbn [fst snd tot]. rewrite Ha64 by lia. split; [|lia].
        split; [apply Hshape|]. exists mc, (<[i := dsp]> ms). cbn [dt_with_table dt_cht dt_map dt_table].
        split; [exact Hc|]. split; [exact Hm'|]. split; [exact En1|]. split; [rewrite map_size_insert, Hms; clear -En2; cbn; lia|].
        intros j [Hj|Hj]; apply Hkey'; [auto|]. destruct (N.eq_dec j i) as [->|Hne]; [auto|].
        rewrite lookup_insert_ne in Hj by congruence. auto.
  Qed.

  Lemma dt_slot_par d i q x d' : dt_update_slot P d i q x = Ret d' -> dt_capa d' = dt_capa d /\ dt_symb d' = dt_symb d.
  Proof.
    intros E. unfold dt_update_slot in E. apply bind_inv in E as (y & _ & E). apply bind_inv in E as ([] & _ & E).
    apply bind_inv in E as ([] & _ & E). cbv zeta in E. apply bind_inv in E as ([v t1] & E1 & E).
    apply bind_inv in E as (tb & _ & E). injection E as <-. cbn [dt_with_table dt_capa dt_symb].
    destruct (_ <? _); [injection E1 as _ <-; auto|].
    destruct (_ <? _); apply bind_inv in E1 as (a & _ & E1); injection E1 as _ <-; auto.
  Qed.
  Lemma dt_new_par cb sb ch d : dt_new P cb sb ch = Ret d -> p2_bits (dt_capa d) = N.max 16 cb /\ p2_bits (dt_symb d) = sb.
  Proof.
    intros E. unfold dt_new in E. apply bind_inv in E as (c & Ec & E). apply bind_inv in E as (s & Es & E).
    apply bind_inv in E as (h & _ & E). apply bind_inv in E as (v & _ & E). apply bind_inv in E as (a & _ & E). injection E as <-.
    cbn [dt_capa dt_symb]. split; [exact (p2_new_some _ _ Ec)|exact (p2_new_some _ _ Es)].
  Qed.
  Lemma dtk_new b sb d : dt_rep P b sb d ∅ ∅ -> dtk b sb d 0 0.
  Proof.
    intros [Hs Ha _]. split; [exact Hs|]. exists ∅, ∅. split; [apply Ha|]. split; [apply Ha|].
    split; [reflexivity|]. split; [reflexivity|]. intros j [Hj|Hj]; rewrite lookup_empty in Hj; destruct Hj; discriminate.
  Qed.
  Lemma dec_lt d b sb x : dt_shape P b sb d -> snd (dt_decompose d x) < 2 ^ b.
  Proof.
    intros Hs. unfold dt_decompose. rewrite (ds_capa _ _ _ _ Hs). cbn [p2_mask snd]. rewrite land_ones_mod.
    apply N.mod_lt, N.pow_nonzero. discriminate.
  Qed.
  Lemma right_lt d b sb i : dt_shape P b sb d -> right_of (dt_capa d) i < 2 ^ b.
  Proof.
    intros Hs. unfold right_of. rewrite (ds_capa _ _ _ _ Hs). cbn [p2_mask]. rewrite land_ones_mod.
    apply N.mod_lt, N.pow_nonzero. discriminate.
  Qed.
  Lemma add64_lt a c : add64 a c < 2 ^ 64.
  Proof. unfold add64. rewrite w64_mod. apply N.mod_lt. discriminate. Qed.

  Context (mf : N) (Hmf : 1 <= mf <= 99) (sb : N).
  (** Of an empty trie and of another: the size, the limit and what is counted. *)
  Definition Q0 (s m n : N) : Prop := s = 0 /\ n = 0.
  Definition Q1 (s m n : N) : Prop := n + 1 = s /\ s <= m.

  (** compact_bonsai_trie *)
  Definition cbk (Q : N -> N -> N -> Prop) (th : cb_trie * hist) : Prop :=
    let t := fst th in let b := p2_bits (dt_capa (cb_dt t)) in
    p2_bits (dt_symb (cb_dt t)) = sb /\
    (b <= 56 -> b + sb < 64 -> dtk b sb (cb_dt t) (snd (fst (snd th))) (snd (snd th)) /\ cb_max t = max_size_of (2 ^ b) mf /\
      Q (cb_size t) (cb_max t) (tot (snd th))).
  Lemma cbk_new cb t : cb_new P mf cb sb 0 = Ret t -> cbk Q0 (t, hist_zero) /\ p2_bits (dt_capa (cb_dt t)) = N.max 16 cb.
  Proof.
    intros E. pose proof E as E0. unfold cb_new in E0. apply bind_inv in E0 as (d & Ed & E0). injection E0 as E0.
    destruct (dt_new_par _ _ _ _ Ed) as [H1 H2]. assert (Hd : cb_dt t = d) by (rewrite <- E0; reflexivity).
    unfold cbk. cbn [fst snd]. cbv zeta. rewrite Hd, H1. split; [|reflexivity]. split; [exact H2|]. intros Hb Hsb.
    destruct (cb_new_ok P HP mf cb sb 0 Hmf Hb Hsb ltac:(lia)) as (t' & E' & Hsh & Hz & Hv).
    rewrite E in E'. injection E' as <-. rewrite <- Hd. split; [apply dtk_new, Hsh|]. split; [apply Hsh|]. split; [exact Hz|reflexivity].
  Qed.
  Lemma cbk_root th t' : cbk Q0 th -> cb_add_root (fst th) = Ret t' -> cbk Q1 (t', snd th).
  Proof.
    destruct th as [t h]. intros [H1 H2] E. unfold cb_add_root in E. apply bind_inv in E as ([] & _ & E). injection E as <-.
    unfold cbk in *. cbn [fst snd cb_dt cb_size cb_max] in *. split; [exact H1|]. intros Hb Hsb.
    destruct (H2 Hb Hsb) as (Hk & Hm & Hs & Ht). split; [exact Hk|]. split; [exact Hm|]. unfold Q1. rewrite Ht, Hm.
    destruct (ms_ok2_facts (p2_bits (dt_capa (cb_dt t))) mf Hb Hmf) as (_ & _ & H3). specialize (H3 (proj1 (ds_b _ _ _ _ (dk_shape _ _ _ _ _ Hk)))).
    split; [reflexivity|lia].
  Qed.
  Lemma cbk_child th x s a y th' : cbk Q1 th -> cbh_add_child P th x s = Ret (a, y, th') ->
    cbk Q1 th' /\ p2_bits (dt_capa (cb_dt (fst th'))) = p2_bits (dt_capa (cb_dt (fst th))).
  Proof.
    destruct th as [t h]. intros Hk E. unfold cbh_add_child in E. cbv zeta in E. apply bind_inv in E as ([] & _ & E).
    apply bind_inv in E as ([] & _ & E). apply bind_inv in E as (hx & _ & E). destruct (dt_decompose (cb_dt t) hx) as [quo md] eqn:Ed.
    set (b := p2_bits (dt_capa (cb_dt t))) in *.
    apply (loop_ret _ (fun '(i, cnt) => (b <= 56 -> b + sb < 64 -> i < 2 ^ b) /\ cnt < 2 ^ 64)
      (fun '(_, _, th') => cbk Q1 th' /\ p2_bits (dt_capa (cb_dt (fst th'))) = b)) in E; [exact E| |].
    { split; [|reflexivity]. intros H1 H2. destruct Hk as [_ Hk]. destruct (Hk H1 H2) as (Hdk & _).
      pose proof (dec_lt (cb_dt t) b sb hx (dk_shape _ _ _ _ _ Hdk)) as Hl. rewrite Ed in Hl. exact Hl. }
    clear E Ed. intros [i cnt] [Hi Hc].
    assert (Hnext : (b <= 56 -> b + sb < 64 -> right_of (dt_capa (cb_dt t)) i < 2 ^ b) /\ add64 cnt 1 < 2 ^ 64).
    { split; [|apply add64_lt]. intros H1 H2. destruct Hk as [_ Hk]. destruct (Hk H1 H2) as (Hdk & _).
      apply (right_lt _ _ _ _ (dk_shape _ _ _ _ _ Hdk)). }
    destruct (cb_get_root t) as [root| | | |] eqn:Er; try exact I. cbn [bind].
    destruct (i =? root); [exact Hnext|]. destruct (dt_compare_dsp _ _ i 0) as [e| | | |]; try exact I. cbn [bind]. destruct e.
    - destruct (N.eqb_spec (cb_size t) (cb_max t)) as [_|Hne]; [split; [exact Hk|reflexivity]|].
      destruct (dt_update_slot P (cb_dt t) i quo cnt) as [d'| | | |] eqn:Eu; try exact I. cbn [bind fst cb_dt].
      destruct (dt_slot_par _ _ _ _ _ Eu) as [Hp1 Hp2]. rewrite Hp1. split; [|reflexivity].
      destruct Hk as [H1 H2]. unfold cbk. cbn [fst snd cb_dt cb_size cb_max]. rewrite Hp1, Hp2. fold b. split; [exact H1|].
      intros Hb Hsb. destruct (H2 Hb Hsb) as (Hdk & Hm & Hq & Hle). cbn [fst snd] in *.
      destruct (ms_ok2_facts b mf Hb Hmf) as (_ & _ & H3). specialize (H3 (proj1 (ds_b _ _ _ _ (dk_shape _ _ _ _ _ Hdk)))).
      assert (H64 : cb_size t + 1 < 2 ^ 64).
      { pose proof (pow2_le b 56 Hb). change (2 ^ 56) with 72057594037927936 in *. change (2 ^ 64) with 18446744073709551616. fold b in Hm. lia. }
      destruct (dtk_update b sb (cb_dt t) h i quo cnt d' Hdk (Hi Hb Hsb) Hc ltac:(lia) Eu) as [Hdk' Ht'].
      split; [exact Hdk'|]. split; [exact Hm|]. unfold Q1. rewrite Ht'. unfold add64. rewrite w64_small by exact H64. lia.
    - destruct (dt_compare_dsp _ _ i cnt) as [c| | | |]; try exact I. cbn [bind]. destruct c; [|exact Hnext].
      destruct (dt_get_quo _ _ i) as [q| | | |]; try exact I. cbn [bind]. destruct (_ =? _); [split; [exact Hk|reflexivity]|exact Hnext].
  Qed.
  Lemma cbk_expand th nm th' : cbk Q1 th -> cbh_expand P mf (fst th) = Ret (nm, th') -> cbk Q1 th'.
  Proof.
    destruct th as [t h]. cbn [fst]. intros [Hs _] E. cbn [fst] in Hs. unfold cbh_expand in E. cbv zeta in E.
    apply bind_inv in E as (nt & En & E). apply bind_inv in E as (nt2 & Er & E).
    apply bind_inv in E as (root & _ & E). apply bind_inv in E as (dn & _ & E). apply bind_inv in E as (low & _ & E).
    apply bind_inv in E as (high & _ & E). apply bind_inv in E as ([[[tb2 hi2] d2] nt3] & Em & E). injection E as <- <-.
    rewrite Hs in En. destruct (cbk_new _ _ En) as [Hk _].
    apply (remap_ret _ _ _ _ _ _ _ (cbk Q1)) in Em; [exact Em| |].
    - intros t2 x s a y t3 H3 E3. apply (cbk_child _ _ _ _ _ _ H3 E3).
    - apply (cbk_root (nt, hist_zero) nt2 Hk Er).
  Qed.
  Lemma cbk_kept : kept (cbh_ops P mf) (cbk Q0) (cbk Q1).
  Proof.
    constructor; cbn [cbh_ops hist_ops tT t_size t_add_root t_add_child t_expand cb_ops].
    - intros th [H1 H2] Hz. split; [exact H1|]. intros Hb Hsb. destruct (H2 Hb Hsb) as (_ & _ & H3 & _). rewrite Hz in H3. lia.
    - intros th th' H E. apply bind_inv in E as (t' & E & H1). injection H1 as <-. apply (cbk_root _ _ H E).
    - intros th x s a y th' H E. apply (cbk_child _ _ _ _ _ _ H E).
    - intros th nm th' H E. apply bind_inv in E as ([m th2] & E & H1). injection H1 as _ <-. apply (cbk_expand _ _ _ H E).
  Qed.

  (** compact_fkhash_trie *)
  Record cft (b : N) (t : cf_trie) (h : hist) : Prop := {
    ft_dtk : dtk b sb (cf_dt t) (snd (fst h)) (snd h);
    ft_max : cf_max t = max_size_of (2 ^ b) mf;
    ft_wf : cv_wf (cf_ids t);
    ft_size : cv_size (cf_ids t) = 2 ^ b;
    ft_width : cv_width (cf_ids t) = b;
    ft_cnt : countb (fun i => negb (cv_val (cf_ids t) i =? N.ones b)) (2 ^ b) = tot h }.
  Lemma ft_b b t h : cft b t h -> 16 <= b <= 56.
  Proof. intros H. apply (ds_b _ _ _ _ (dk_shape _ _ _ _ _ (ft_dtk _ _ _ H))). Qed.
  Lemma cft_update b t h i quo x nid t' : cft b t h -> i < 2 ^ b -> cv_val (cf_ids t) i = N.ones b -> nid < N.ones b -> x < 2 ^ 64 ->
    cf_update_slot P t i quo x nid = Ret t' -> cft b t' (count_dsp P h x) /\ tot (count_dsp P h x) = tot h + 1.
  Proof.
    intros Ht Hi Hid Hnid Hx E. unfold cf_update_slot in E. apply bind_inv in E as (d & Ed & E). apply bind_inv in E as (ids & Eids & E).
    injection E as <-. pose proof (ft_b _ _ _ Ht) as Hb.
    assert (H64 : tot h + 1 < 2 ^ 64).
    { rewrite <- (ft_cnt _ _ _ Ht). pose proof (countb_le (fun i => negb (cv_val (cf_ids t) i =? N.ones b)) (2 ^ b)).
      pose proof (pow2_le b 56 (proj2 Hb)). change (2 ^ 56) with 72057594037927936 in *. change (2 ^ 64) with 18446744073709551616. lia. }
    destruct (dtk_update b sb (cf_dt t) h i quo x d (ft_dtk _ _ _ Ht) Hi Hx H64 Ed) as [Hd Htot].
    destruct (cv_set_ok (cf_ids t) i nid (ft_wf _ _ _ Ht)) as (ids' & E' & Hwf & Hcs & Hcw & Hval).
    { rewrite (ft_size _ _ _ Ht). exact Hi. }
    { rewrite (ft_width _ _ _ Ht). rewrite N.ones_equiv in Hnid. lia. }
    rewrite Eids in E'. injection E' as <-. rewrite (ft_size _ _ _ Ht) in Hval. split; [|exact Htot].
    constructor; cbn [cf_dt cf_ids cf_max].
    - exact Hd.
    - apply (ft_max _ _ _ Ht).
    - exact Hwf.
    - rewrite Hcs. apply (ft_size _ _ _ Ht).
    - rewrite Hcw. apply (ft_width _ _ _ Ht).
    - rewrite Htot, <- (ft_cnt _ _ _ Ht). apply (countb_upd _ _ (2 ^ b) i Hi).
      + rewrite Hid, N.eqb_refl. reflexivity.
      + rewrite Hval, N.eqb_refl by exact Hi. rewrite (proj2 (N.eqb_neq nid (N.ones b))) by lia. reflexivity.
      + intros j Hj Hne. rewrite Hval by exact Hj. rewrite (proj2 (N.eqb_neq j i)) by exact Hne. reflexivity.
  Qed.
  Definition cfk (Q : N -> N -> N -> Prop) (th : cf_trie * hist) : Prop :=
    let t := fst th in let b := p2_bits (dt_capa (cf_dt t)) in
    p2_bits (dt_symb (cf_dt t)) = sb /\
    (b <= 56 -> b + sb < 64 -> cft b t (snd th) /\ Q (cf_size t) (cf_max t) (tot (snd th))).
  Lemma cfk_new cb t : cf_new P mf cb sb 0 = Ret t -> cfk Q0 (t, hist_zero) /\ p2_bits (dt_capa (cf_dt t)) = N.max 16 cb.
  Proof.
    intros E. pose proof E as E0. unfold cf_new in E0. apply bind_inv in E0 as (d & Ed & E0). cbv zeta in E0.
    apply bind_inv in E0 as (ids & _ & E0). injection E0 as E0.
    destruct (dt_new_par _ _ _ _ Ed) as [H1 H2]. assert (Hd : cf_dt t = d) by (rewrite <- E0; reflexivity).
    unfold cfk. cbn [fst snd]. cbv zeta. rewrite Hd, H1. split; [|reflexivity]. split; [exact H2|]. intros Hb Hsb.
    destruct (cf_new_ok P HP mf cb sb 0 Hmf Hb Hsb ltac:(lia)) as (t' & E' & Hsh & Hz & Hv).
    rewrite E in E'. injection E' as <-. split; [|split; [exact Hz|reflexivity]]. constructor.
    - apply dtk_new, Hsh.
    - apply Hsh.
    - apply Hsh.
    - apply Hsh.
    - apply Hsh.
    - cbn [hist_zero tot]. apply countb_const_false. intros i Hi. specialize (Hv i Hi). unfold cf_cell in Hv.
      destruct (_ =? _); [reflexivity|discriminate].
  Qed.
  Lemma cfk_root th t' : cfk Q0 th -> cf_add_root (fst th) = Ret t' -> cfk Q1 (t', snd th).
  Proof.
    destruct th as [t h]. intros [H1 H2] E. unfold cf_add_root in E. apply bind_inv in E as ([] & _ & E). injection E as <-.
    unfold cfk in *. cbn [fst snd cf_dt cf_size cf_max] in *. split; [exact H1|]. intros Hb Hsb.
    destruct (H2 Hb Hsb) as (Hk & Hs & Ht). pose proof (ft_max _ _ _ Hk) as Hm.
    split; [destruct Hk; constructor; assumption|]. unfold Q1. rewrite Ht, Hm.
    destruct (ms_ok2_facts (p2_bits (dt_capa (cf_dt t))) mf Hb Hmf) as (_ & _ & H3). specialize (H3 (proj1 (ft_b _ _ _ Hk))).
    split; [reflexivity|lia].
  Qed.
  (** After expand_ there is room for one more. *)
  Definition Q2 (s m n : N) : Prop := n + 1 = s /\ s < m.
  Lemma cfk_expand th th' : cfk Q1 th -> cfh_expand P mf (fst th) = Ret th' -> cfk Q2 th'.
  Proof.
    destruct th as [t h]. cbn [fst]. intros [Hs Hk] E. cbn [fst] in Hs, Hk. unfold cfh_expand in E. cbv zeta in E.
    apply bind_inv in E as (nt & En & E). apply bind_inv in E as ([nt2 h2] & Ef & E). injection E as <-.
    rewrite Hs in En. destruct (cfk_new _ _ En) as [Hnk Hnb]. set (b := p2_bits (dt_capa (cf_dt t))) in *.
    set (b1 := N.max 16 (b + 1)) in *.
    (* the table of the new trie *)
    apply (for_range_ret_i _ _ _ _ _ (fun i th => p2_bits (dt_capa (cf_dt (fst th))) = b1 /\ p2_bits (dt_symb (cf_dt (fst th))) = sb /\
      (b1 <= 56 -> b1 + sb < 64 -> cft b1 (fst th) (snd th) /\
        tot (snd th) = countb (fun i => negb (cv_val (cf_ids t) i =? N.ones b)) i))) in Ef.
    - cbn [fst snd] in Ef. destruct Ef as (E1 & E2 & Hf). unfold cfk. cbn [fst snd cf_dt cf_size cf_max]. rewrite E1.
      split; [exact E2|]. intros Hb1 Hsb1. destruct (Hf Hb1 Hsb1) as [Hc Ht]. 
      destruct (Hk ltac:(unfold b1 in *; lia) ltac:(unfold b1 in *; lia)) as (Hc0 & Hq & Hle). cbn [snd] in *.
      pose proof (ft_b _ _ _ Hc0) as Hb. pose proof (ft_max _ _ _ Hc) as Hm. pose proof (ft_max _ _ _ Hc0) as Hm0.
      rewrite (ds_capa _ _ _ _ (dk_shape _ _ _ _ _ (ft_dtk _ _ _ Hc0))), p2_size_ones in Ht by lia.
      rewrite (ft_cnt _ _ _ Hc0) in Ht. split; [destruct Hc; constructor; assumption|].
      unfold Q2. rewrite Ht, Hm. split; [exact Hq|].
      assert (Hmax : max_size_of (2 ^ b) mf < max_size_of (2 ^ (b + 1)) mf) by (apply ms_ok2_facts; lia).
      replace b1 with (b + 1) by (unfold b1; lia). lia.
    - cbn [fst snd]. split; [exact Hnb|]. split; [apply Hnk|]. intros Hb1 Hsb1. destruct Hnk as [_ Hnk]. cbn [fst snd] in Hnk.
      rewrite Hnb in Hnk. destruct (Hnk Hb1 Hsb1) as (Hc & _). split; [exact Hc|]. reflexivity.
    - lia.
    - intros i [n1 h1] s' Hi (H1 & H2 & H3) Ei. cbn [fst snd] in *.
      apply bind_inv in Ei as (c & Ec & Ei).
      assert (Hold : b1 <= 56 -> b1 + sb < 64 -> cft b t h /\ i < 2 ^ b /\ c = cv_val (cf_ids t) i).
      { intros Hb1 Hsb1. destruct (Hk ltac:(unfold b1 in *; lia) ltac:(unfold b1 in *; lia)) as (Hc0 & _). cbn [snd] in Hc0.
        pose proof (ft_b _ _ _ Hc0) as Hb. rewrite (ds_capa _ _ _ _ (dk_shape _ _ _ _ _ (ft_dtk _ _ _ Hc0))), p2_size_ones in Hi by lia.
        split; [exact Hc0|]. split; [lia|]. rewrite cv_get_ok in Ec; [injection Ec as <-; reflexivity|apply Hc0|].
        rewrite (ft_size _ _ _ Hc0). lia. }
      assert (Hmask : b1 <= 56 -> b1 + sb < 64 -> p2_mask (dt_capa (cf_dt t)) = N.ones b).
      { intros Hb1 Hsb1. destruct (Hold Hb1 Hsb1) as (Hc0 & _).
        rewrite (ds_capa _ _ _ _ (dk_shape _ _ _ _ _ (ft_dtk _ _ _ Hc0))). reflexivity. }
      destruct (N.eqb_spec c (p2_mask (dt_capa (cf_dt t)))) as [Hcm|Hcm].
      { injection Ei as <-. cbn [fst snd]. split; [exact H1|]. split; [exact H2|]. intros Hb1 Hsb1.
        destruct (H3 Hb1 Hsb1) as [Hc Ht]. destruct (Hold Hb1 Hsb1) as (_ & _ & Hci). split; [exact Hc|].
        rewrite countb_succ, Ht, <- Hci, Hcm, (Hmask Hb1 Hsb1), N.eqb_refl. change (b2n (negb true)) with 0. lia. }
      apply bind_inv in Ei as (dist & _ & Ei). apply bind_inv in Ei as (q & _ & Ei). apply bind_inv in Ei as (key & _ & Ei).
      apply bind_inv in Ei as (x & _ & Ei). destruct (dt_decompose (cf_dt n1) x) as [quo md] eqn:Ed.
      apply (loop_ret _ (fun '(j, cnt) => (b1 <= 56 -> b1 + sb < 64 -> j < 2 ^ b1) /\ cnt < 2 ^ 64)
        (fun th => p2_bits (dt_capa (cf_dt (fst th))) = b1 /\ p2_bits (dt_symb (cf_dt (fst th))) = sb /\
          (b1 <= 56 -> b1 + sb < 64 -> cft b1 (fst th) (snd th) /\ tot (snd th) = tot h1 + 1))) in Ei.
      { destruct Ei as (E1 & E2 & Hf). split; [exact E1|]. split; [exact E2|]. intros Hb1 Hsb1. destruct (Hf Hb1 Hsb1) as [Hc Ht].
        split; [exact Hc|]. destruct (H3 Hb1 Hsb1) as [_ Ht1]. destruct (Hold Hb1 Hsb1) as (_ & _ & Hci).
        rewrite countb_succ, Ht, Ht1, <- Hci, <- (Hmask Hb1 Hsb1), (proj2 (N.eqb_neq _ _) Hcm). reflexivity. }
      { split; [|reflexivity]. intros Hb1 Hsb1. destruct (H3 Hb1 Hsb1) as [Hc _].
        pose proof (dec_lt (cf_dt n1) b1 sb x (dk_shape _ _ _ _ _ (ft_dtk _ _ _ Hc))) as Hl. rewrite Ed in Hl. exact Hl. }
      clear Ei. intros [j cnt] [Hj Hcnt]. destruct (cv_get (cf_ids n1) j) as [c1| | | |] eqn:Ec1; try exact I. cbn [bind].
      destruct (N.eqb_spec c1 (p2_mask (dt_capa (cf_dt n1)))) as [Hc1|_].
      + destruct (cf_update_slot P n1 j quo cnt c) as [n2| | | |] eqn:Eu; try exact I. cbn [bind fst snd].
        assert (Hpar : dt_capa (cf_dt n2) = dt_capa (cf_dt n1) /\ dt_symb (cf_dt n2) = dt_symb (cf_dt n1)).
        { unfold cf_update_slot in Eu. apply bind_inv in Eu as (d & Edd & Eu). apply bind_inv in Eu as (ids & _ & Eu). injection Eu as <-.
          apply (dt_slot_par _ _ _ _ _ Edd). }
        destruct Hpar as [-> ->]. split; [exact H1|]. split; [exact H2|]. intros Hb1 Hsb1.
        destruct (H3 Hb1 Hsb1) as [Hc Ht]. destruct (Hold Hb1 Hsb1) as (Hc0 & Hi0 & Hci).
        pose proof (ft_b _ _ _ Hc0) as Hb.
        apply (cft_update b1 n1 h1 j quo cnt c n2 Hc (Hj Hb1 Hsb1)); [| |exact Hcnt|exact Eu].
        * rewrite cv_get_ok in Ec1; [injection Ec1 as E1|apply Hc|rewrite (ft_size _ _ _ Hc); apply Hj; assumption].
          rewrite E1, Hc1, (ds_capa _ _ _ _ (dk_shape _ _ _ _ _ (ft_dtk _ _ _ Hc))). reflexivity.
        * pose proof (cv_val_lt (cf_ids t) i (ft_wf _ _ _ Hc0)) as Hl. rewrite (ft_size _ _ _ Hc0), (ft_width _ _ _ Hc0), <- Hci in Hl.
          specialize (Hl Hi0). replace b1 with (b + 1) by (unfold b1; lia). rewrite N.ones_equiv, N.pow_add_r. change (2 ^ 1) with 2.
          pose proof (pow2_pos b). assert (c <> N.pred (2 ^ b)). { rewrite <- N.ones_equiv, <- (Hmask Hb1 Hsb1). exact Hcm. } lia.
      + split; [|apply add64_lt]. intros Hb1 Hsb1. destruct (H3 Hb1 Hsb1) as [Hc _].
        apply (right_lt _ _ _ _ (dk_shape _ _ _ _ _ (ft_dtk _ _ _ Hc))).
  Qed.
  Lemma cfk_child th x s a y th' : cfk Q1 th -> cfh_add_child P mf th x s = Ret (a, y, th') -> cfk Q1 th'.
  Proof.
    destruct th as [t0 h0]. intros Hk0 E. unfold cfh_add_child in E. cbn [fst] in E. cbv zeta in E.
    apply bind_inv in E as ([] & _ & E). apply bind_inv in E as ([] & _ & E). apply bind_inv in E as ([t h] & Ex & E).
    assert (Hk : cfk Q2 (t, h)).
    { destruct (N.leb_spec (cf_max t0) (cf_size t0)) as [_|Hlt]; [apply (cfk_expand _ _ Hk0 Ex)|]. injection Ex as <- <-.
      destruct Hk0 as [H1 H2]. split; [exact H1|]. intros Hb Hsb. destruct (H2 Hb Hsb) as (Hc & Hq & _). split; [exact Hc|].
      split; [exact Hq|exact Hlt]. }
    clear Hk0 Ex. apply bind_inv in E as (hx & _ & E). destruct (dt_decompose (cf_dt t) hx) as [quo md] eqn:Ed.
    set (b := p2_bits (dt_capa (cf_dt t))) in *.
    assert (Hk1 : cfk Q1 (t, h)).
    { destruct Hk as [H1 H2]. split; [exact H1|]. intros Hb Hsb. destruct (H2 Hb Hsb) as (Hc & Hq & Hlt). split; [exact Hc|].
      split; [exact Hq|lia]. }
    apply (loop_ret _ (fun '(i, cnt) => (b <= 56 -> b + sb < 64 -> i < 2 ^ b) /\ cnt < 2 ^ 64)
      (fun '(_, _, th') => cfk Q1 th')) in E; [exact E| |].
    { split; [|reflexivity]. intros H1 H2. destruct Hk as [_ Hk]. destruct (Hk H1 H2) as (Hc & _).
      pose proof (dec_lt (cf_dt t) b sb hx (dk_shape _ _ _ _ _ (ft_dtk _ _ _ Hc))) as Hl. rewrite Ed in Hl. exact Hl. }
    clear E Ed. intros [i cnt] [Hi Hc].
    assert (Hnext : (b <= 56 -> b + sb < 64 -> right_of (dt_capa (cf_dt t)) i < 2 ^ b) /\ add64 cnt 1 < 2 ^ 64).
    { split; [|apply add64_lt]. intros H1 H2. destruct Hk as [_ Hk]. destruct (Hk H1 H2) as (Hcc & _).
      apply (right_lt _ _ _ _ (dk_shape _ _ _ _ _ (ft_dtk _ _ _ Hcc))). }
    destruct (cv_get (cf_ids t) i) as [c| | | |] eqn:Ec; try exact I. cbn [bind].
    destruct (N.eqb_spec c (p2_mask (dt_capa (cf_dt t)))) as [Hcm|_].
    - destruct (cf_update_slot P t i quo cnt (cf_size t)) as [n| | | |] eqn:Eu; try exact I. cbn [bind].
      assert (Hpar : dt_capa (cf_dt n) = dt_capa (cf_dt t) /\ dt_symb (cf_dt n) = dt_symb (cf_dt t)).
      { unfold cf_update_slot in Eu. apply bind_inv in Eu as (d & Edd & Eu). apply bind_inv in Eu as (ids & _ & Eu). injection Eu as <-.
        apply (dt_slot_par _ _ _ _ _ Edd). }
      destruct Hpar as [Hp1 Hp2]. unfold cfk. cbn [fst snd cf_dt cf_size cf_max]. rewrite Hp1, Hp2. fold b.
      destruct Hk as [H1 H2]. split; [exact H1|]. intros Hb Hsb. destruct (H2 Hb Hsb) as (Hcc & Hq & Hlt). cbn [fst snd] in *.
      pose proof (ft_b _ _ _ Hcc) as Hb16. pose proof (ft_max _ _ _ Hcc) as Hm.
      destruct (ms_ok2_facts b mf Hb Hmf) as (_ & _ & H3). specialize (H3 (proj1 Hb16)).
      destruct (cft_update b t h i quo cnt (cf_size t) n Hcc (Hi Hb Hsb)) as [Hc' Ht']; [| |exact Hc|exact Eu|].
      { rewrite cv_get_ok in Ec; [injection Ec as E1|apply Hcc|rewrite (ft_size _ _ _ Hcc); apply Hi; assumption].
        rewrite E1, Hcm, (ds_capa _ _ _ _ (dk_shape _ _ _ _ _ (ft_dtk _ _ _ Hcc))). reflexivity. }
      { rewrite N.ones_equiv. fold b in Hm. lia. }
      split; [destruct Hc'; constructor; assumption|]. unfold Q1. rewrite Ht'.
      unfold add64. rewrite w64_small.
      + split; [lia|]. fold b in Hm. unfold cf_update_slot in Eu. lia.
      + pose proof (pow2_le b 56 Hb). change (2 ^ 56) with 72057594037927936 in *. change (2 ^ 64) with 18446744073709551616. fold b in Hm. lia.
    - destruct (dt_compare_dsp _ _ i cnt) as [e| | | |]; try exact I. cbn [bind]. destruct e; [|exact Hnext].
      destruct (dt_get_quo _ _ i) as [q| | | |]; try exact I. cbn [bind]. destruct (_ =? _); [exact Hk1|exact Hnext].
  Qed.
  Lemma cfk_kept : kept (cfh_ops P mf) (cfk Q0) (cfk Q1).
  Proof.
    constructor; cbn [cfh_ops hist_ops tT t_size t_add_root t_add_child t_expand cf_ops].
    - intros th [H1 H2] Hz. split; [exact H1|]. intros Hb Hsb. destruct (H2 Hb Hsb) as (_ & H3 & _). rewrite Hz in H3. lia.
    - intros th th' H E. apply bind_inv in E as (t' & E & H1). injection H1 as <-. apply (cfk_root _ _ H E).
    - intros th x s a y th' H E. apply (cfk_child _ _ _ _ _ _ H E).
    - intros th nm th' H E. discriminate E.
  Qed.
End counts.

(** ** Every instantiation *)
Lemma kept_resize (TB : trie_ops) full J0 J : kept TB J0 J -> kept (resize_ops TB full) (fun t => J0 (fst t)) (fun t => J (fst t)).
Proof.
  intros HK. constructor; cbn [resize_ops tT t_size t_add_root t_add_child t_expand].
  - intros t H Hz. apply (kp_zero _ _ _ HK _ H Hz).
  - intros t t' H E. apply bind_inv in E as (t1 & E & H1). injection H1 as <-. apply (kp_root _ _ _ HK _ _ H E).
  - intros t x s a y t' H E. apply bind_inv in E as ([[a1 y1] t1] & E & H1). injection H1 as _ _ <-. apply (kp_child _ _ _ HK _ _ _ _ _ _ H E).
  - intros t nm t' H E. apply bind_inv in E as ([nm1 t1] & E & H1). injection H1 as _ <-. apply (kp_expand _ _ _ HK _ _ _ H E).
Qed.
Lemma ceil_log2_exact e : e < 64 -> ceil_log2 (2 ^ e) = Ret e.
Proof.
  intros He. destruct (N.eq_dec e 0) as [->|Hne]; [reflexivity|].
  destruct (ceil_log2_ok (2 ^ e)) as (n & E & Hn & Hmin).
  - pose proof (pow2_pos e). lia.
  - apply pow2_lt. lia.
  - rewrite E. f_equal. specialize (Hmin e (N.le_refl _)). apply N.pow_le_mono_r_iff in Hn; lia.
Qed.
Lemma stats_kept dbg (TB : trie_ops) (NO : nlm_ops) full J0 J cb e ops s0 xs s : e < 64 -> kept TB J0 J ->
  (forall t, t_new TB cb (8 + e) = Ret t -> J0 t /\ t_size TB t = 0) ->
  stats_new (resize_ops TB full) NO cb (2 ^ e) = Ret s0 -> stats_run dbg (resize_ops TB full) NO s0 ops = Ret (xs, s) ->
  let t := fst (m_trie _ _ (sm_map _ _ s)) in if t_size TB t =? 0 then J0 t else J t.
Proof.
  intros He HK Hnew E Er. unfold stats_new in E. apply bind_inv in E as (m & E & H). injection H as <-.
  destruct (new_ready _ _ _ _ _ E) as [Hr _]. unfold map_new in E. apply bind_inv in E as ([] & _ & E).
  apply bind_inv in E as (cl & Ec & E). rewrite (ceil_log2_exact e He) in Ec. injection Ec as <-.
  apply bind_inv in E as (t & Et & E). apply bind_inv in E as (n & _ & E). apply bind_inv in E as (c & _ & E).
  cbn [resize_ops t_new] in Et. apply bind_inv in Et as (t1 & Et & H). injection H as <-. destruct (Hnew _ Et) as [H0 Hz].
  apply (kept_run dbg _ _ _ _ (kept_resize TB full J0 J HK) False ltac:(intros [])) in Er.
  - destruct Er as [Hk _]. unfold kinv in Hk. destruct (m_ready _ _ _); [exact Hk|contradiction].
  - split; [|cbn [sm_map]; rewrite Hr; discriminate]. unfold kinv, kany. cbn [sm_map]. rewrite Hr. injection E as <-. cbn [m_trie resize_ops t_size fst].
    rewrite Hz. exact H0.
Qed.
Lemma i_capa_bits dbg vs i cb lam ops s0 xs s : s_new dbg vs i cb lam = Ret s0 -> s_run dbg vs i s0 ops = Ret (xs, s) ->
  p2_bits (t_capa (i_trie dbg i) (fst (m_trie _ _ (sm_map _ _ s)))) = N.max 16 cb + s_num_resize dbg vs i s.
Proof.
  intros E Er. unfold s_new, stats_new in E. apply bind_inv in E as (m & E & H). injection H as <-.
  destruct (new_ready _ _ _ _ _ E) as [Hr (sb & Hn)]. unfold s_trie in *.
  pose proof (capJ_new _ _ (i_cap dbg i) _ _ _ Hn) as HJ.
  apply (kept_run dbg _ _ (capJ _ _ (N.max 16 cb)) (capJ _ _ (N.max 16 cb)) (capJ_kept _ _ (i_cap dbg i) _) False ltac:(intros [])) in Er.
  - destruct Er as [Hk _]. unfold kinv, kany in Hk. destruct (m_ready _ _ _); [|contradiction].
    destruct (_ =? 0); exact (capb_bits _ _ _ Hk).
  - split; [unfold kinv, kany; cbn [sm_map]; rewrite Hr; destruct (_ =? 0); exact HJ|]. cbn [sm_map]. rewrite Hr. discriminate.
Qed.
Lemma Q_nodes s m n : (if s =? 0 then Q0 s m n else Q1 s m n) -> n + (if s =? 0 then 0 else 1) = s.
Proof. destruct (N.eqb_spec s 0) as [->|_]; unfold Q0, Q1; lia. Qed.
Lemma cbk_out (HT : trie_hashers) (HO : th_ok HT) P mf e b (th : cb_trie * hist) n1 n2 : dp_ok P -> b + e <= 55 ->
  (if cb_size (fst th) =? 0 then cbk P mf (8 + e) Q0 th else cbk P mf (8 + e) Q1 th) -> p2_bits (dt_capa (cb_dt (fst th))) = b ->
  Some (ch_size (dt_cht (cb_dt (fst th))), st_size (dt_map (cb_dt (fst th)))) = Some (n1, n2) ->
  exists n0, snd th = (n0, n1, n2) /\ n0 + n1 + n2 + (if cb_size (fst th) =? 0 then 0 else 1) = cb_size (fst th).
Proof.
  destruct th as [t [[n0 k1] k2]]. intros HP Hbe Hk Hb Ea. unfold cbk in Hk. cbn [fst snd] in *. rewrite Hb in Hk.
  assert (Hdk : dtk P b (8 + e) (cb_dt t) k1 k2).
  { destruct (cb_size t =? 0); destruct Hk as [_ Hk]; apply Hk; lia. }
  destruct (dtk_sizes P HP _ _ _ _ _ Hdk) as (S1 & S2 & _). injection Ea as <- <-. rewrite S1, S2.
  exists n0. split; [reflexivity|]. apply (Q_nodes _ (cb_max t)).
  destruct (cb_size t =? 0); destruct Hk as [_ Hk]; apply Hk; lia.
Qed.
Lemma cfk_out (HT : trie_hashers) (HO : th_ok HT) P mf e b (th : cf_trie * hist) n1 n2 : dp_ok P -> b + e <= 55 ->
  (if cf_size (fst th) =? 0 then cfk P mf (8 + e) Q0 th else cfk P mf (8 + e) Q1 th) -> p2_bits (dt_capa (cf_dt (fst th))) = b ->
  Some (ch_size (dt_cht (cf_dt (fst th))), st_size (dt_map (cf_dt (fst th)))) = Some (n1, n2) ->
  exists n0, snd th = (n0, n1, n2) /\ n0 + n1 + n2 + (if cf_size (fst th) =? 0 then 0 else 1) = cf_size (fst th).
Proof.
  destruct th as [t [[n0 k1] k2]]. intros HP Hbe Hk Hb Ea. unfold cfk in Hk. cbn [fst snd] in *. rewrite Hb in Hk.
  assert (Hdk : dtk P b (8 + e) (cf_dt t) k1 k2).
  { destruct (cf_size t =? 0); destruct Hk as [_ Hk]; apply Hk; lia. }
  destruct (dtk_sizes P HP _ _ _ _ _ Hdk) as (S1 & S2 & _). injection Ea as <- <-. rewrite S1, S2.
  exists n0. split; [reflexivity|]. apply (Q_nodes _ (cf_max t)).
  destruct (cf_size t =? 0); destruct Hk as [_ Hk]; apply Hk; lia.
Qed.
(** The counts after every history. *)
Lemma i_hist_inv dbg vs i cb e ops s0 xs s n1 n2 : valid_inst i -> i_supported vs i cb e (updated ops) ->
  Forall (valid_op vs) ops -> i_no_trap dbg i (updated ops) ->
  h_new dbg vs i cb (2 ^ e) = Ret s0 -> h_run dbg vs i s0 ops = Ret (xs, s) -> h_aux_sizes dbg vs i s = Some (n1, n2) ->
  let nodes := s_nodes dbg vs i (h_rest dbg vs i s) in
  exists n0, h_dsps dbg vs i s = (n0, n1, n2) /\ n0 + n1 + n2 + (if nodes =? 0 then 0 else 1) = nodes.
Proof.
  intros Hvi Hsup Hv Hnt Es Er Ea. destruct (i_supported_limit _ _ _ _ _ Hvi Hsup) as (He & Hcb & Hroom & _).
  pose proof (h_new_same dbg vs i cb (2 ^ e)) as E1. rewrite Es in E1. cbn [bind] in E1.
  pose proof (h_run_same dbg vs i s0 ops) as E2. rewrite Er in E2. cbn [bind fst snd] in E2.
  pose proof (er_new_i dbg vs i cb (2 ^ e)) as E3. rewrite E1 in E3. cbn [bind] in E3.
  assert (Hr : i_reaches dbg vs i cb e ops (erl_i dbg vs i (h_rest dbg vs i s))).
  { exists (erl_i dbg vs i (h_rest dbg vs i s0)), xs. split; [exact E3|]. rewrite (er_run_i dbg vs i _ ops), E2. reflexivity. }
  destruct (i_bounds dbg vs i cb e ops _ Hvi Hsup Hv Hnt Hr) as (_ & _ & b & Hc & _ & Hbe & _).
  pose proof (i_resize_ok dbg vs i cb (2 ^ e) ops _ xs _ E1 E2) as Hz.
  pose proof (i_capa_bits dbg vs i cb (2 ^ e) ops _ xs _ E1 E2) as Hbits.
  assert (Eb : b = N.max 16 cb + s_num_resize dbg vs i (h_rest dbg vs i s)).
  { apply (N.pow_inj_r 2); [lia|]. rewrite <- Hz, <- Hc. reflexivity. }
  rewrite <- Eb in Hbits. clear Eb Hz Hc Hr E1 E2 E3 Hsup Hv Hnt Hcb Hroom.
  pose proof (proj1 Hvi) as Hmf. pose proof (valid_dp i) as HP. cbv zeta.
  unfold h_aux_sizes, aux_sizes in Ea.
  destruct i as [[H mf|H P mf|H mf|H P mf] l]; cbn [i_mf i_t i_par] in *; try discriminate Ea.
  - pose proof (valid_th H (proj2 (proj2 Hvi))) as HTO. specialize (HP P Hvi eq_refl).
    pose proof (stats_kept dbg (h_base dbg (mkInst (T_compact_bonsai H P mf) l)) (s_nlm vs (mkInst (T_compact_bonsai H P mf) l))
      (fun t => i_full dbg (mkInst (T_compact_bonsai H P mf) l) (fst t)) (cbk P mf (8 + e) Q0) (cbk P mf (8 + e) Q1)
      cb e ops s0 xs s ltac:(lia) (cbk_kept P HP mf Hmf (8 + e))) as Hk.
    match type of Hk with ?A -> _ => assert (HA : A) end.
    { intros t Et. cbn in Et. apply bind_inv in Et as (t1 & Et & Ht). injection Ht as <-.
      split; [exact (proj1 (cbk_new P HP mf Hmf (8 + e) cb t1 Et))|].
      unfold cb_new in Et. apply bind_inv in Et as (d & _ & Et). injection Et as <-. reflexivity. }
    specialize (Hk HA Es Er). cbv zeta in Hk.
    exact (cbk_out H HTO P mf e b _ n1 n2 HP Hbe Hk Hbits Ea).
  - pose proof (valid_th H (proj2 (proj2 Hvi))) as HTO. specialize (HP P Hvi eq_refl).
    pose proof (stats_kept dbg (h_base dbg (mkInst (T_compact_fkhash H P mf) l)) (s_nlm vs (mkInst (T_compact_fkhash H P mf) l))
      (fun t => i_full dbg (mkInst (T_compact_fkhash H P mf) l) (fst t)) (cfk P mf (8 + e) Q0) (cfk P mf (8 + e) Q1)
      cb e ops s0 xs s ltac:(lia) (cfk_kept P HP mf Hmf (8 + e))) as Hk.
    match type of Hk with ?A -> _ => assert (HA : A) end.
    { intros t Et. cbn in Et. apply bind_inv in Et as (t1 & Et & Ht). injection Ht as <-.
      split; [exact (proj1 (cfk_new P HP mf Hmf (8 + e) cb t1 Et))|].
      unfold cf_new in Et. apply bind_inv in Et as (d & _ & Et). cbv zeta in Et. apply bind_inv in Et as (v & _ & Et). injection Et as <-. reflexivity. }
    specialize (Hk HA Es Er). cbv zeta in Hk.
    exact (cfk_out H HTO P mf e b _ n1 n2 HP Hbe Hk Hbits Ea).
Qed.
