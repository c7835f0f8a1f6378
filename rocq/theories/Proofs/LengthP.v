(** The label statistics of POPLAR_EXTRA_STATS: they change nothing, and what they count. *)
From Verif.Model Require Export Stats.
From Verif.Proofs Require Export OomP OwnP SumP PairP.
From Verif.Proofs Require Import AllocP ShareP.
Local Open Scope N_scope.

(** ** The counters change nothing *)
Section erase.
  Context (dbg : bool) (TO : trie_ops) (NO : nlm_ops).
  Notation NS := (length_ops NO).
  Definition ln (m : map_st TO NS) : map_st TO NO :=
    mkMap TO NO (m_ready _ _ m) (m_lambda _ _ m) (m_trie _ _ m) (fst (m_nlm _ _ m)) (m_codes _ _ m) (m_num_codes _ _ m) (m_size _ _ m).

  Lemma ln_new cb lam : map_new TO NO cb lam = let* m := map_new TO NS cb lam in Ret (ln m).
  Proof.
    unfold map_new. destruct (throw_if _ _) as [[]| | | |]; try reflexivity. cbn [bind].
    destruct (ceil_log2 lam) as [cl| | | |]; try reflexivity. cbn [bind].
    destruct (t_new TO cb (8 + cl)) as [t| | | |]; try reflexivity. cbn [bind length_ops n_new].
    destruct (n_new NO _) as [n| | | |]; reflexivity.
  Qed.
  Lemma ln_find m k : map_find dbg TO NS m k = map_find dbg TO NO (ln m) k.
  Proof. reflexivity. Qed.
  Lemma ln_expand x t (n : nT NS) : expand_if_needed TO NO x t (fst n) =
    let* r := expand_if_needed TO NS x t n in let '(x, t, n) := r in Ret (x, t, fst n).
  Proof.
    unfold expand_if_needed. destruct (t_kind TO); [|reflexivity]. destruct (negb _); [reflexivity|].
    destruct (t_expand TO t) as [[nm t']| | | |]; try reflexivity. cbn [bind].
    destruct (nm_get nm x) as [y| | | |]; try reflexivity. cbn [bind length_ops n_expand].
    destruct (n_expand NO (fst n) nm) as [n'| | | |]; reflexivity.
  Qed.
  Lemma ln_step x t (n : nT NS) : add_step TO NO x t (fst n) =
    let* r := add_step TO NS x t n in let '(x, t, n) := r in Ret (x, t, fst n).
  Proof.
    unfold add_step. destruct (t_add_child TO t x step_symb) as [[[a y] t']| | | |]; try reflexivity. cbn [bind].
    destruct a; [|reflexivity]. rewrite (ln_expand y t' n).
    destruct (expand_if_needed TO NS y t' n) as [[[y2 t2] n2]| | | |]; try reflexivity. cbn [bind].
    destruct (t_kind TO); [reflexivity|]. cbn [length_ops n_size n_append_dummy].
    destruct (assert_ _) as [[]| | | |]; try reflexivity. cbn [bind].
    destruct (n_append_dummy NO (fst n2)) as [n3| | | |]; reflexivity.
  Qed.
  Definition lnw (st : N * N * tT TO * nT NS) : N * N * tT TO * nT NO := let '(x, mt, t, n) := st in (x, mt, t, fst n).
  Lemma ln_steps lam t (n : nT NS) x mt : update_steps TO NO lam t (fst n) x mt =
    let* r := update_steps TO NS lam t n x mt in Ret (lnw r).
  Proof.
    unfold update_steps. change (x, mt, t, fst n) with (lnw (x, mt, t, n)).
    apply (loop_sim (fun st : N * N * tT TO * nT NS => _) (fun st : N * N * tT TO * nT NO => _) lnw lnw).
    intros [[[y m] t1] n1]. unfold lnw at 1. destruct (lam <=? m); [|reflexivity].
    rewrite (ln_step y t1 n1). destruct (add_step TO NS y t1 n1) as [[[? ?] ?]| | | |]; reflexivity.
  Qed.
  Lemma ln_leaf x s k t (n : nT NS) : add_leaf TO NO x s k t (fst n) =
    let* r := add_leaf TO NS x s k t n in let '(o, x, t, n) := r in Ret (o, x, t, fst n).
  Proof.
    unfold add_leaf. destruct (t_add_child TO t x s) as [[[a y] t']| | | |]; try reflexivity. cbn [bind].
    destruct a; [|reflexivity]. rewrite (ln_expand y t' n).
    destruct (expand_if_needed TO NS y t' n) as [[[y2 t2] n2]| | | |]; try reflexivity. cbn [bind].
    destruct (t_kind TO); cbn [length_ops n_size n_append n_insert].
    - destruct (n_insert NO (fst n2) y2 k) as [[? ?]| | | |]; reflexivity.
    - destruct (assert_ _) as [[]| | | |]; try reflexivity. cbn [bind].
      destruct (n_append NO (fst n2) k) as [[? ?]| | | |]; reflexivity.
  Qed.
  Lemma ln_first k t (n : nT NS) : add_first TO NO k t (fst n) =
    let* r := add_first TO NS k t n in let '(p, t, n) := r in Ret (p, t, fst n).
  Proof.
    unfold add_first. destruct (t_add_root TO t) as [t'| | | |]; try reflexivity. cbn [bind].
    destruct (t_kind TO); cbn [length_ops n_append n_insert].
    - destruct (t_get_root TO t') as [r| | | |]; try reflexivity. cbn [bind].
      destruct (n_insert NO (fst n) r k) as [[? ?]| | | |]; reflexivity.
    - destruct (n_append NO (fst n) k) as [[? ?]| | | |]; reflexivity.
  Qed.
  Definition lnr (r : update_result * map_st TO NS) : update_result * map_st TO NO := (fst r, ln (snd r)).
  Definition lnst (st : map_st TO NS * N * list N) : map_st TO NO * N * list N := let '(m, x, k) := st in (ln m, x, k).
  Lemma ln_body st : update_body dbg TO NO (lnst st) =
    let* r := update_body dbg TO NS st in Ret (match r with inl st => inl (lnst st) | inr r => inr (lnr r) end).
  Proof.
    destruct st as [[m x] k]. unfold update_body, lnst. cbn [ln m_nlm m_lambda m_codes m_num_codes m_trie m_size m_ready length_ops n_compare].
    destruct k as [|c0 k].
    { destruct (n_compare NO _ x []) as [[]| | | |]; reflexivity. }
    destruct (n_compare NO _ x (c0 :: k)) as [[[p|] mt]| | | |]; try reflexivity. cbn [bind]. cbv zeta.
    rewrite (ln_steps _ _ _ x mt).
    destruct (update_steps TO NS _ _ _ x mt) as [[[[y mt'] t] n]| | | |]; try reflexivity. cbn [bind].
    destruct (deref _) as [ch| | | |]; try reflexivity. cbn [bind].
    destruct (vget _ ch) as [code| | | |]; try reflexivity. cbn [bind].
    match goal with |- context [bind (if ?b then ?u else ?v) _] => destruct (if b then u else v) as [[[codes nc] th]| | | |]; try reflexivity end.
    cbn [bind lnw]. destruct th; [reflexivity|].
    destruct (make_symb dbg codes ch mt') as [symb| | | |]; try reflexivity. cbn [bind].
    rewrite (ln_leaf y symb _ t n).
    destruct (add_leaf TO NS y symb _ t n) as [[[[[p|] z] t2] n2]| | | |]; reflexivity.
  Qed.
  Lemma ln_update m k : map_update dbg TO NO (ln m) k = let* r := map_update dbg TO NS m k in Ret (lnr r).
  Proof.
    unfold map_update. destruct (check_key k) as [[]| | | |]; try reflexivity. cbn [bind].
    change (m_trie _ _ (ln m)) with (m_trie _ _ m). destruct (t_size TO _ =? 0).
    - assert (E : (if negb (m_ready TO NO (ln m)) then map_new TO NO 0 32 else Ret (ln m)) =
        let* m := (if negb (m_ready TO NS m) then map_new TO NS 0 32 else Ret m) in Ret (ln m)).
      { change (m_ready TO NO (ln m)) with (m_ready TO NS m). destruct (negb _); [apply ln_new|reflexivity]. }
      rewrite E. clear E. destruct (if negb (m_ready TO NS m) then map_new TO NS 0 32 else Ret m) as [m1| | | |]; try reflexivity.
      cbn [bind]. cbn [ln m_nlm m_lambda m_codes m_num_codes m_trie m_size m_ready].
      rewrite (ln_first k (m_trie _ _ m1)).
      destruct (add_first TO NS k _ _) as [[[p t] n]| | | |]; reflexivity.
    - destruct (t_get_root TO _) as [root| | | |]; try reflexivity. cbn [bind].
      change (ln m, root, k) with (lnst (m, root, k)).
      apply (loop_sim (update_body dbg TO NS) (update_body dbg TO NO) lnst lnr). apply ln_body.
  Qed.
  Lemma ln_run ops : forall m, api_run dbg TO NO (ln m) ops = let* r := api_run dbg TO NS m ops in Ret (fst r, ln (snd r)).
  Proof.
    induction ops as [|o ops IH]; intros m; [reflexivity|]. cbn [api_run].
    assert (E : api_step dbg TO NO (ln m) o = let* r := api_step dbg TO NS m o in Ret (fst r, ln (snd r))).
    { destruct o as [k w|k]; unfold api_step.
      - rewrite ln_update. destruct (map_update dbg TO NS m k) as [[[[p|]|x] s1]| | | |]; try reflexivity. cbn [bind lnr fst snd].
        change (map_read TO NO (ln s1) p) with (map_read TO NS s1 p).
        destruct (map_read TO NS _ p) as [v| | | |]; try reflexivity. cbn [bind]. destruct w as [w|]; [|reflexivity].
        unfold map_write. change (n_heap NO (m_nlm TO NO (ln s1))) with (n_heap NS (m_nlm TO NS s1)).
        destruct (hp_write _ p w) as [h| | | |]; reflexivity.
      - change (map_find dbg TO NO (ln m) k) with (map_find dbg TO NS m k).
        destruct (map_find dbg TO NS _ k) as [[p|]| | | |]; try reflexivity. cbn [bind].
        change (map_read TO NO (ln m) p) with (map_read TO NS m p).
        destruct (map_read TO NS _ p) as [v| | | |]; reflexivity. }
    rewrite E. destruct (api_step dbg TO NS m o) as [[x s1]| | | |]; try reflexivity. cbn [bind fst snd].
    rewrite IH. destruct (api_run dbg TO NS s1 ops) as [[xs s2]| | | |]; reflexivity.
  Qed.
End erase.

(** ** What they count *)
Definition labels_counted {K} `{Countable K} (c : N * N) (m : gmap K (list N * list N)) : Prop :=
  snd c = msum (fun _ e => N.of_nat (length (fst e))) m mod 2 ^ 64 /\
  (forall x e, m !! x = Some e -> N.of_nat (length (fst e)) <= fst c) /\
  (fst c = 0 \/ exists x e, m !! x = Some e /\ N.of_nat (length (fst e)) = fst c).

Lemma counted_empty {K} `{Countable K} : labels_counted (0, 0) (∅ : gmap K _).
Proof. split; [rewrite msum_empty; reflexivity|]. split; [intros x e; rewrite lookup_empty; discriminate|left; reflexivity]. Qed.
Lemma add64_mod s l : add64 (s mod 2 ^ 64) l = (l + s) mod 2 ^ 64.
Proof. unfold add64. rewrite w64_mod, N.add_comm. apply N.add_mod_idemp_r. discriminate. Qed.
Lemma counted_insert {K} `{Countable K} c (m : gmap K (list N * list N)) x k v : m !! x = None -> labels_counted c m ->
  labels_counted (count_length c k) (<[x := (k, v)]> m).
Proof.
  intros Hx (Hs & Hm & Ha). unfold count_length. split; [|split]; cbn [fst snd].
  - rewrite Hs, add64_mod, msum_insert by exact Hx. reflexivity.
  - intros y e Hy. destruct (decide (y = x)) as [->|Hne].
    + rewrite lookup_insert in Hy. injection Hy as <-. cbn [fst]. lia.
    + rewrite lookup_insert_ne in Hy by congruence. specialize (Hm y e Hy). lia.
  - destruct (N.max_spec (fst c) (N.of_nat (length k))) as [[_ ->]|[_ ->]].
    + right. exists x, (k, v). rewrite lookup_insert. split; reflexivity.
    + destruct Ha as [Ha|(y & e & Hy & He)]; [left; exact Ha|]. right. exists y, e. split; [|exact He].
      rewrite lookup_insert_ne; [exact Hy|]. intros ->. congruence.
Qed.
(** Maps with the same labels, at whatever places. *)
Lemma counted_move {K1 K2} `{Countable K1} `{Countable K2} c (m1 : gmap K1 (list N * list N)) (m2 : gmap K2 (list N * list N)) (R : K1 -> K2 -> Prop) :
  (forall x e, m1 !! x = Some e -> exists y f, R x y /\ m2 !! y = Some f /\ length (fst e) = length (fst f)) ->
  (forall y f, m2 !! y = Some f -> exists x e, R x y /\ m1 !! x = Some e /\ length (fst e) = length (fst f)) ->
  (forall x x' y, is_Some (m1 !! x) -> is_Some (m1 !! x') -> R x y -> R x' y -> x = x') ->
  (forall x y y', is_Some (m2 !! y) -> is_Some (m2 !! y') -> R x y -> R x y' -> y = y') ->
  labels_counted c m1 -> labels_counted c m2.
Proof.
  intros H1 H2 I1 I2 (Hs & Hm & Ha). split; [|split].
  - rewrite Hs. f_equal. apply N.le_antisymm.
    + apply (msum_le _ _ R); [|exact I1]. intros x e Hx. destruct (H1 x e Hx) as (y & f & Hr & Hy & E).
      exists y, f. split; [exact Hr|]. split; [exact Hy|]. rewrite E. reflexivity.
    + apply (msum_le _ _ (fun y x => R x y)).
      * intros y f Hy. destruct (H2 y f Hy) as (x & e & Hr & Hx & E).
        exists x, e. split; [exact Hr|]. split; [exact Hx|]. rewrite E. reflexivity.
      * intros y y' x Hy Hy' A B. exact (I2 x y y' Hy Hy' A B).
  - intros y f Hy. destruct (H2 y f Hy) as (x & e & _ & Hx & E). rewrite <- E. apply (Hm x e Hx).
  - destruct Ha as [Ha|(x & e & Hx & He)]; [left; exact Ha|right].
    destruct (H1 x e Hx) as (y & f & _ & Hy & E). exists y, f. split; [exact Hy|]. rewrite <- E. exact He.
Qed.
Lemma counted_none {K1 K2} `{Countable K1} `{Countable K2} c : labels_counted c (∅ : gmap K1 (list N * list N)) ->
  labels_counted c (∅ : gmap K2 (list N * list N)).
Proof.
  intros (Hs & _ & Ha). split; [rewrite msum_empty in *; exact Hs|]. split; [intros x e; rewrite lookup_empty; discriminate|].
  destruct Ha as [Ha|(x & e & Hx & _)]; [left; exact Ha|]. rewrite lookup_empty in Hx. discriminate.
Qed.
Lemma counted_write {K} `{Countable K} c (m : gmap K (list N * list N)) x l v w : m !! x = Some (l, v) -> labels_counted c m ->
  labels_counted c (<[x := (l, w)]> m).
Proof.
  intros Hx. apply (counted_move _ _ _ eq); [| |congruence|congruence].
  - intros y e Hy. exists y. destruct (decide (y = x)) as [->|Hne].
    + exists (l, w). rewrite lookup_insert. rewrite Hy in Hx. injection Hx as ->. auto.
    + exists e. rewrite lookup_insert_ne by congruence. auto.
  - intros y f Hy. exists y. destruct (decide (y = x)) as [->|Hne].
    + exists (l, v). rewrite lookup_insert in Hy. injection Hy as <-. auto.
    + exists f. rewrite lookup_insert_ne in Hy by congruence. auto.
Qed.

(** ** The store with counters is a store *)
Section wrap.
  Context (NO : nlm_ops) {Q : Type} (stable : nT NO -> N -> Q -> Prop) (rep : N -> nT NO -> gmap N (list N * list N) -> Prop).
  Context (npt : nT NO -> N -> ptr -> Prop).
  Notation NS := (length_ops NO).
  Definition lstable (n : nT NS) : N -> Q -> Prop := stable (fst n).
  Definition lrep (P : N) (n : nT NS) (m : gmap N (list N * list N)) : Prop := rep P (fst n) m /\ labels_counted (snd n) m.
  Definition lnpt (n : nT NS) : N -> ptr -> Prop := npt (fst n).

  Lemma blnm_length : blnm_ok NO stable rep npt -> blnm_ok NS lstable lrep lnpt.
  Proof.
    intros HB. split; cbn [length_ops n_new n_compare n_insert n_heap n_set_heap n_vs n_expand].
    - intros b Hb. destruct (bn_new _ _ _ _ HB b Hb) as (n & E & Hn). exists (n, (0, 0)). rewrite E. split; [reflexivity|].
      split; [exact Hn|apply counted_empty].
    - intros P n m x k l v [Hr _]. apply (bn_compare _ _ _ _ HB P (fst n) m x k l v Hr).
    - intros P n m x k [Hr Hc] Hx Hm Hk. destruct (bn_insert _ _ _ _ HB P (fst n) m x k Hr Hx Hm Hk) as (p & n' & E & Hr' & Hp & Hs).
      exists p, (n', count_length (snd n) k). rewrite E. split; [reflexivity|]. split; [|auto].
      split; [exact Hr'|apply counted_insert; assumption].
    - intros P n m x p [Hr _]. apply (bn_read _ _ _ _ HB P (fst n) m x p Hr).
    - intros P n m x p l v w [Hr Hc] Hp Hx Hw. destruct (bn_write _ _ _ _ HB P (fst n) m x p l v w Hr Hp Hx Hw) as (h & E & Hr' & H1 & H2).
      exists h. split; [exact E|]. split; [|auto]. split; [exact Hr'|]. apply (counted_write _ m x l v w Hx Hc).
    - intros P n m nm f m' [Hr Hc] H1 H2 H3 H4 H5 H6 H7.
      destruct (bn_expand _ _ _ _ HB P (fst n) m nm f m' Hr H1 H2 H3 H4 H5 H6 H7) as (n' & E & Hr' & Hs).
      exists (n', snd n). rewrite E. split; [reflexivity|]. split; [|exact Hs]. split; [exact Hr'|]. cbn [snd].
      apply (counted_move _ m m' (fun x y => f x = Some y)); [| | | |exact Hc].
      + intros x e Hx. destruct (H6 x e Hx) as [_ [y Hy]]. exists y, e. split; [exact Hy|]. split; [|reflexivity].
        apply H7. exists x. auto.
      + intros y e Hy. apply H7 in Hy as (x & Hx & Hm). exists x, e. auto.
      + intros x x' y [e Hx] [e' Hx'] A B. apply (H4 x x' y); [apply (H6 _ _ Hx)|apply (H6 _ _ Hx')|exact A|exact B].
      + intros x y y' _ _ A B. congruence.
  Qed.
  Lemma flnm_length : flnm_ok NO stable rep npt -> flnm_ok NS lstable lrep lnpt.
  Proof.
    intros HF. split; cbn [length_ops n_new n_compare n_append n_append_dummy n_heap n_set_heap n_vs n_size].
    - intros b Hb. destruct (fn_new _ _ _ _ HF b Hb) as (n & E & Hn). exists (n, (0, 0)). rewrite E. split; [reflexivity|].
      split; [exact Hn|apply counted_empty].
    - intros c n m [Hr _]. apply (fn_size _ _ _ _ HF c (fst n) m Hr).
    - intros c n m x k l v [Hr _]. apply (fn_compare _ _ _ _ HF c (fst n) m x k l v Hr).
    - intros c n m k [Hr Hc] H1 Hk. destruct (fn_append _ _ _ _ HF c (fst n) m k Hr H1 Hk) as (p & n' & E & Hr' & Hp & Hs).
      exists p, (n', count_length (snd n) k). rewrite E. split; [reflexivity|]. split; [|auto].
      split; [exact Hr'|]. apply counted_insert; [|exact Hc].
      destruct (m !! c) as [e|] eqn:Em; [|reflexivity]. pose proof (fn_dom _ _ _ _ HF c (fst n) m c e Hr Em). lia.
    - intros c n m [Hr Hc] H1. destruct (fn_dummy _ _ _ _ HF c (fst n) m Hr H1) as (n' & E & Hr' & Hs).
      exists (n', snd n). rewrite E. split; [reflexivity|]. split; [|exact Hs]. split; assumption.
    - intros c n m x e [Hr _]. apply (fn_dom _ _ _ _ HF c (fst n) m x e Hr).
    - intros c n m x p [Hr _]. apply (fn_read _ _ _ _ HF c (fst n) m x p Hr).
    - intros c n m x p l v w [Hr Hc] Hp Hx Hw. destruct (fn_write _ _ _ _ HF c (fst n) m x p l v w Hr Hp Hx Hw) as (h & E & Hr' & H1 & H2).
      exists h. split; [exact E|]. split; [|auto]. split; [exact Hr'|]. apply (counted_write _ m x l v w Hx Hc).
  Qed.
End wrap.
Lemma link_counted loc lab m c : link loc lab m -> inj_loc loc -> labels_counted c m -> labels_counted c lab.
Proof.
  intros Hl Hj. apply (counted_move _ m lab (fun x q => loc !! q = Some x)).
  - intros x e Hx. destruct (lk_q _ _ _ Hl x e Hx) as [q Hq]. exists q, e. split; [exact Hq|].
    rewrite <- (lk_m _ _ _ Hl q x Hq). auto.
  - intros q e Hq. destruct (lk_lab _ _ _ Hl q e Hq) as [x Hx]. exists x, e. split; [exact Hx|].
    rewrite (lk_m _ _ _ Hl q x Hx). auto.
  - intros x x' q _ _ A B. congruence.
  - intros x q q' _ _ A B. exact (Hj q q' x A B).
Qed.

(** ** The counters and the dictionary *)
Lemma lens_dict TO NO e srep m S D M b loc lab c : mrep TO NO e srep m S D M b loc lab -> labels_counted c lab ->
  snd c = label_total M mod 2 ^ 64 /\ label_total M <= N.of_nat (size M) * fst c /\ fst c <= longest M.
Proof.
  intros R HC. pose proof (mr_D _ _ _ _ _ _ _ _ _ _ _ R) as HD. pose proof (mr_dict _ _ _ _ _ _ _ _ _ _ _ R) as HM.
  destruct (mr_ne _ _ _ _ _ _ _ _ _ _ _ R) as [f0 Hf0].
  assert (Hne : D <> ∅) by (intros ->; rewrite lookup_empty in Hf0; discriminate).
  destruct (lens_total S D M HD HM Hne) as [E1 E2].
  destruct HC as (Hs & Hm & Ha). rewrite (lab_msum _ _ _ _ _ _ _ _ _ _ _ (fun x => N.of_nat (length (fst x))) R) in Hs. fold (lens D) in Hs. rewrite E1 in Hs.
  split; [exact Hs|]. split.
  - rewrite <- E1, <- E2. rewrite N.mul_comm, <- msum_const. unfold lens. apply msum_mono. intros π f Hp.
    apply (Hm (MapP.enc e (m_codes _ _ m) π) f). apply (mr_lab _ _ _ _ _ _ _ _ _ _ _ R π _ Hp).
  - destruct Ha as [->|(q & f & Hq & <-)]; [lia|].
    destruct (mr_lab2 _ _ _ _ _ _ _ _ _ _ _ R q _ Hq) as (π & -> & Hp). destruct f as [l v]. cbn [fst].
    etransitivity; [|apply (longest_ge M (keyof D π))].
    + unfold keyof, label. rewrite Hp, app_length. lia.
    + apply elem_of_dom. exists v. apply (proj1 HM π l v Hp).
Qed.
