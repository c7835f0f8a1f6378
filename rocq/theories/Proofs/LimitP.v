(** Facts behind Props/LimitProps.v. *)
From Verif.Proofs Require Export ReachP.
From Verif.Model Require Export Move.
Local Open Scope N_scope.
Local Existing Instance vigna_hasher.

(** The root of a reachable non-empty map. *)
Section nonempty.
  Context (dbg : bool) (vs : nat) (a : alias) (cb e : N) (ks : list (list N)).
  Hypothesis Hsup : supported vs cb e ks.
  Lemma reach_root ops rest m : ks = updated ops ++ rest -> Forall (valid_op vs) ops -> no_trap dbg a (updated ops) ->
    reaches dbg vs a cb e ops m -> updated ops <> [] ->
    exists S D b loc lab l v root,
      mrep (a_trie dbg a) (a_nlm vs a) e (pk_srep _ _ _ _ _ _ (alias_at dbg vs a cb e ks)) m S D (final vs ops) b loc lab /\
      N.of_nat (size loc) <= nodes_for e (updated ops) /\
      m_ready _ _ m = true /\ t_size _ (m_trie _ _ m) <> 0 /\ t_get_root _ (m_trie _ _ m) = Ret root /\
      loc !! [] = Some root /\ D !! [] = Some (l, v) /\ lab !! [] = Some (l, v) /\ okey l /\ In l (updated ops).
  Proof.
    intros Eks Hv Hnt Hr Hne.
    destruct (reach_inv dbg vs a cb e ks Hsup ops rest m Eks Hv Hnt Hr) as (S & D & b & loc & Hi & _ & _).
    pose proof (reach_pk dbg vs a cb e ks Hsup) as PK.
    destruct (minv_count _ _ _ _ _ m S D _ b loc Hi) as [Hu _]. rewrite dom_final in Hu.
    destruct Hi as [(_ & HM & _)|[lab R]].
    { exfalso. destruct (updated ops) as [|k ks'] eqn:Ek; [congruence|].
      assert (Hin : In k (updated ops)) by (rewrite Ek; left; reflexivity).
      assert (Hn : value_after vs k None ops = None) by (rewrite <- final_value, HM; apply lookup_empty).
      apply value_after_none in Hn. exact (Hn Hin). }
    pose proof (mr_store _ _ _ _ _ _ _ _ _ _ _ R) as Hs.
    destruct (so_root _ _ _ _ _ _ _ _ _ _ PK _ _ _ _ _ Hs) as (root & Er & Hroot).
    destruct (mr_ne _ _ _ _ _ _ _ _ _ _ _ R) as [[l v] Hl].
    exists S, D, b, loc, lab, l, v, root. split; [exact R|]. split; [exact Hu|].
    split; [apply (mr_ready _ _ _ _ _ _ _ _ _ _ _ R)|]. split.
    { rewrite (so_size _ _ _ _ _ _ _ _ _ _ PK _ _ _ _ _ Hs). intros E.
      assert (size loc = 0%nat) as Ez by (clear -E; lia). apply map_size_empty_inv in Ez.
      rewrite Ez, lookup_empty in Hroot. discriminate. }
    split; [exact Er|]. split; [exact Hroot|]. split; [exact Hl|].
    split; [apply (mr_lab _ _ _ _ _ _ _ _ _ _ _ R [] _ Hl)|].
    split; [apply (dv_root _ _ (mr_D _ _ _ _ _ _ _ _ _ _ _ R) l v Hl)|].
    destruct (mr_dict _ _ _ _ _ _ _ _ _ _ _ R) as [Hd1 _]. specialize (Hd1 [] l v Hl).
    assert (Ek : keyof D [] = l) by (unfold keyof; rewrite (label_some D [] l v Hl); reflexivity).
    rewrite Ek, final_value in Hd1. destruct (in_dec (List.list_eq_dec N.eq_dec) l (updated ops)) as [|Hn]; [assumption|].
    apply (value_after_none vs) in Hn. congruence.
  Qed.
End nonempty.

(** ** Moved-from maps *)
Definition broken {A} (r : outcome A) : Prop := r = UB \/ r = AssertFail.
Lemma broken_bind {A B} (r : outcome A) (f : A -> outcome B) : broken r -> broken (bind r f).
Proof. intros [-> | ->]; [left|right]; reflexivity. Qed.
Lemma broken_loop {S R} (f : S -> outcome (S + R)) s : broken (f s) -> broken (loop f s).
Proof.
  intros [E|E]; [left|right]; rewrite (loop_unroll_bad f s _ E); reflexivity || discriminate.
Qed.
Lemma vget_empty {A} (d : A) i : vget (vnew 0 d) i = UB.
Proof. unfold vget, vnew. cbn [vlen]. destruct (i <? 0) eqn:E; [apply N.ltb_lt in E; lia|reflexivity]. Qed.
Lemma moved_compare vs a (n : nT (a_nlm vs a)) pos key : broken (n_compare (a_nlm vs a) (a_nlm_moved vs a n) pos key).
Proof.
  assert (Hc : forall cs n, broken (cfn_compare cs vs (cfn_moved n) pos key)).
  { intros cs n'. unfold cfn_compare. unfold assert_ at 1. destruct (pos <? _); [rewrite bind_ret|right; reflexivity].
    destruct (decompose_value cs pos) as [i j]. cbn [cfn_moved cfn_ptrs cfn_buf]. unfold vnew at 1. cbn [vlen].
    destruct (i <? 0) eqn:E; [apply N.ltb_lt in E; lia|]. cbn [vlen vnew]. unfold assert_.
    destruct (i =? 0); [left|right]; reflexivity. }
  assert (Hb : forall cs n, broken (cbn_compare cs vs (cbn_moved n) pos key)).
  { intros cs n'. unfold cbn_compare. destruct (decompose_value cs pos) as [i j]. cbn [cbn_moved cbn_ptrs].
    rewrite vget_empty. left. reflexivity. }
  assert (Hp : forall h, broken (plain_compare (vnew 0 None) h pos key)).
  { intros h. unfold plain_compare. cbn [vlen vnew]. destruct (pos <? 0) eqn:E; [apply N.ltb_lt in E; lia|]. right. reflexivity. }
  destruct a as [|c|c| |c|c]; cbn [a_nlm a_nlm_moved n_compare pbn_ops pfn_ops cbn_ops cfn_ops]; auto; apply Hp.
Qed.
Lemma moved_size dbg a (t : tT (a_trie dbg a)) : t_size _ (a_trie_moved dbg a t) = t_size _ t.
Proof. destruct a; reflexivity. Qed.
Lemma moved_root dbg a (t : tT (a_trie dbg a)) : t_get_root _ (a_trie_moved dbg a t) = t_get_root _ t.
Proof. destruct a; reflexivity. Qed.

(** ** The assertion of plain_fkhash_trie::add_child *)
Lemma pf_add_trap {HF : plain_hasher} mf b sb t loc : pf_rep true mf b sb t loc ->
  pf_size t < pf_max t \/ (b <= 55 /\ b + 1 + sb < 64) -> pf_add_child true mf t 0 0 = AssertFail.
Proof.
  intros H Hroom. pose proof (PlainFkP.fr_shape _ _ _ _ _ _ H) as Hsh.
  pose proof (PlainFkP.fs_b _ _ _ _ Hsh) as Hb. pose proof (PlainFkP.fs_sb _ _ _ _ Hsh) as Hsb.
  unfold pf_add_child. rewrite (PlainFkP.fs_capa _ _ _ _ Hsh), (PlainFkP.fs_symb _ _ _ _ Hsh).
  rewrite !p2_size_ones by lia. rewrite !(proj2 (N.ltb_lt _ _)) by apply pow2_pos.
  unfold assert_ at 1 2. rewrite !bind_ret.
  assert (Hkey : forall s, make_key s 0 0 = 0).
  { intros s. unfold make_key. rewrite N.lor_0_r. unfold shl. rewrite N.shiftl_0_l. reflexivity. }
  destruct (N.leb_spec (pf_max t) (pf_size t)) as [Hge|Hlt].
  - destruct Hroom as [Hr|[H1 H2]]; [lia|].
    destruct (pf_expand_ok true mf b sb t loc H H1 H2) as (t' & E & _). rewrite E, bind_ret, Hkey. reflexivity.
  - rewrite bind_ret, Hkey. reflexivity.
Qed.
Lemma lcp_0 l : okey l -> l <> [0] -> lcp [0] l = 0%nat.
Proof.
  intros Hl Hne. destruct l as [|c l]; [reflexivity|]. apply okey_cons in Hl as [[-> ->]|[Hc _]]; [congruence|].
  simpl. destruct c; [congruence|reflexivity].
Qed.

Lemma update_trap vs a cb e ops m : traps true a = true ->
  supported vs cb e (updated ops ++ [[0]]) -> Forall (valid_op vs) ops -> ~ In [0] (updated ops) -> updated ops <> [] ->
  reaches true vs a cb e ops m -> a_update true vs a m [0] = AssertFail.
Proof.
  intros Ht Hsup Hv Hn Hne Hr.
  assert (Hnt : no_trap true a (updated ops)) by (intros _; exact Hn).
  destruct (reach_root true vs a cb e _ Hsup ops _ m eq_refl Hv Hnt Hr Hne)
    as (S & D & b & loc & lab & l & v & root & R & Hu & Hrd & Hsz & Er & Hroot & HD & Hlab & Hl & Hin).
  pose proof (reach_pk true vs a cb e _ Hsup) as PK.
  pose proof (mr_store _ _ _ _ _ _ _ _ _ _ _ R) as Hs.
  assert (Hl0 : l <> [0]) by (intros ->; exact (Hn Hin)).
  assert (Hok0 : okey [0]) by (exists []; split; [reflexivity|intros []]).
  destruct (so_compare _ _ _ _ _ _ _ _ _ _ PK _ _ _ _ _ _ root [0] l v Hs Hroot Hlab (or_intror (conj Hok0 Hl))) as [_ Hcmp].
  specialize (Hcmp (fun E => Hl0 (eq_sym E))). rewrite (lcp_0 l Hl Hl0) in Hcmp.
  unfold a_update, map_update, update_body. rewrite (check_key_ok [0] Hok0), bind_ret, (proj2 (N.eqb_neq _ _) Hsz), Er, bind_ret.
  pose proof (mr_codes _ _ _ _ _ _ _ _ _ _ _ R) as HC.
  assert (Hc0 : vget (m_codes _ _ m) 0 = Ret 0).
  { unfold vget. rewrite (co_len _ _ _ HC). change (0 <? 256) with true. cbn iota. f_equal. apply (co_0 _ _ _ HC). }
  assert (Hstep : update_steps (a_trie true a) (a_nlm vs a) (m_lambda _ _ m) (m_trie _ _ m) (m_nlm _ _ m) root 0
                  = Ret (root, 0, m_trie _ _ m, m_nlm _ _ m)).
  { unfold update_steps. apply loop_unroll_exit. cbn beta iota. rewrite (mr_lam _ _ _ _ _ _ _ _ _ _ _ R).
    rewrite (proj2 (N.leb_gt _ _)) by apply pow2_pos. reflexivity. }
  assert (Hleaf : forall key, add_leaf (a_trie true a) (a_nlm vs a) root 0 key (m_trie _ _ m) (m_nlm _ _ m) = AssertFail).
  { intros key. unfold add_leaf. assert (E : t_add_child (a_trie true a) (m_trie _ _ m) root 0 = AssertFail).
    - destruct (supported_limit _ _ _ _ Hsup) as (He & Hcb & Hroom & HA).
      assert (Hused : N.of_nat (size loc) + 1 < node_limit 90 (8 + e)).
      { pose proof (nodes_for_app e (updated ops) [[0]]) as Hle. clear -Hu Hroom Hle. lia. }
      assert (Hpf : forall t : pf_trie, pf_rep true 90 b (8 + e) t loc -> pf_add_child true 90 t 0 0 = AssertFail).
      { intros t H. apply (pf_add_trap 90 b (8 + e) t loc H).
        pose proof (PlainFkP.fs_b _ _ _ _ (PlainFkP.fr_shape _ _ _ _ _ _ H)) as Hb. pose proof (PlainFkP.fs_sb _ _ _ _ (PlainFkP.fr_shape _ _ _ _ _ _ H)) as Hsb.
        destruct (N.lt_ge_cases (pf_size t) (pf_max t)) as [|Hge]; [left; assumption|right].
        rewrite (PlainFkP.fs_max _ _ _ _ (PlainFkP.fr_shape _ _ _ _ _ _ H)), (PlainFkP.fr_size _ _ _ _ _ _ H) in Hge.
        assert (b + 1 <= bits_limit (8 + e)) as Hlm.
        { apply (node_limit_room 90 (8 + e) mf90 b (N.of_nat (size loc))); [unfold bits_limit; clear -Hb Hsb; lia|exact Hge|exact Hused]. }
        unfold bits_limit in Hlm. clear -Hlm Hb Hsb He. lia. }
      clear Hcmp Hstep Hc0 R HC. destruct a as [|c|c| |c|c]; try discriminate Ht;
        destruct Hs as [[Hrep _] _]; pose proof (tr_root _ _ _ _ _ _ _ (PlainFkP.fr_trep _ _ _ _ _ _ Hrep)) as H0;
        rewrite H0 in Hroot; injection Hroot as <-; exact (Hpf _ Hrep).
    - rewrite E. reflexivity. }
  rewrite (loop_unroll_bad _ _ AssertFail); [reflexivity| |discriminate].
  cbn beta iota. rewrite Hcmp, bind_ret. cbn iota. change (N.of_nat 0) with 0.
  change (advance [0] 0) with [0]. rewrite Hstep, bind_ret. cbn [deref]. rewrite bind_ret, Hc0, bind_ret.
  change (0 =? 255) with false. cbn iota. rewrite !bind_ret. cbn iota beta.
  assert (Hsym : make_symb true (m_codes _ _ m) 0 0 = Ret 0) by (unfold make_symb; rewrite Hc0; reflexivity).
  rewrite Hsym, bind_ret, Hleaf. reflexivity.
Qed.
