(** Programs with several maps (Props/ProgProps.v): every object follows the history of its contents. *)
From Verif.Model Require Export Program.
From Verif.Proofs Require Import InstP LifeP OomP OwnP EntriesP LimitP SumP.
From Verif.Props Require Import DestroyProps.
Local Open Scope N_scope.

Lemma hupdated_app ops ops' : hupdated (ops ++ ops') = hupdated ops ++ hupdated ops'.
Proof. apply flat_map_app. Qed.
Lemma life_run_app vs lim ops : forall s ops', life_run vs lim s (ops ++ ops') =
  match life_run vs lim s ops with
  | None => None
  | Some (xs, s) => match life_run vs lim s ops' with None => None | Some (ys, s) => Some (xs ++ ys, s) end
  end.
Proof.
  induction ops as [|o ops IH]; intros s ops'; cbn [app life_run].
  - destruct (life_run vs lim s ops') as [[ys s']|]; reflexivity.
  - destruct (life_step vs lim s o) as [[x s1]|]; [|reflexivity]. rewrite IH.
    destruct (life_run vs lim s1 ops) as [[xs s2]|]; [|reflexivity].
    destruct (life_run vs lim s2 ops') as [[ys s3]|]; reflexivity.
Qed.
Lemma hapi_run_app dbg TO NO ops : forall m hs ops', hapi_run dbg TO NO m hs (ops ++ ops') =
  let* r := hapi_run dbg TO NO m hs ops in let '(xs, m, hs) := r in
  let* r := hapi_run dbg TO NO m hs ops' in let '(ys, m, hs) := r in Ret (xs ++ ys, m, hs).
Proof.
  induction ops as [|o ops IH]; intros m hs ops'; cbn [app hapi_run bind].
  - destruct (hapi_run dbg TO NO m hs ops') as [[[]]| | | |]; reflexivity.
  - destruct (hapi_step dbg TO NO m hs o) as [[[x m1] hs1]| | | |]; try reflexivity. cbn [bind]. rewrite IH.
    destruct (hapi_run dbg TO NO m1 hs1 ops) as [[[xs m2] hs2]| | | |]; try reflexivity. cbn [bind].
    destruct (hapi_run dbg TO NO m2 hs2 ops') as [[[ys m3] hs3]| | | |]; reflexivity.
Qed.

(** ** Histories without updates *)
Definition blank (hs : list handle) : Prop := Forall (fun h => h = None) hs.
Lemma life_quiet vs lim ops : forall order hs r, hupdated ops = [] -> blank hs ->
  life_run vs lim (mkLife ∅ order hs) ops = Some r -> lf_dict (snd r) = ∅ /\ lf_order (snd r) = order /\ blank (lf_handles (snd r)).
Proof.
  induction ops as [|o ops IH]; intros order hs r Hu Hb Hr; cbn [life_run] in Hr.
  - injection Hr as <-. auto.
  - destruct o as [k|k|j|j w]; [discriminate Hu| | |]; unfold life_step in Hr.
    + rewrite lookup_empty in Hr. cbv iota beta in Hr.
      destruct (life_run vs lim (mkLife ∅ order (hs ++ [None])) ops) as [[xs s]|] eqn:E; [|discriminate]. injection Hr as <-.
      refine (IH order (hs ++ [None]) (xs, s) Hu _ E). apply Forall_app. split; [exact Hb|repeat constructor].
    + destruct (hs !! j) as [[[k p]|]|] eqn:Ej; try discriminate; apply (Forall_lookup_1 _ _ _ _ Hb) in Ej; discriminate.
    + destruct (hs !! j) as [[[k p]|]|] eqn:Ej; try discriminate; apply (Forall_lookup_1 _ _ _ _ Hb) in Ej; discriminate.
Qed.

Lemma default_update_gen dbg TO NO (m0 : map_st TO NO) k : t_size TO (t_default TO) = 0 -> map_new TO NO 0 32 = Ret m0 ->
  m_ready _ _ m0 = true -> t_size TO (m_trie _ _ m0) = 0 ->
  map_update dbg TO NO (map_default TO NO) k = map_update dbg TO NO m0 k.
Proof.
  intros Hd E Hr Hz. unfold map_update. destruct (check_key k) as [[]| | | |]; cbn [bind]; [|exact eq_refl..].
  cbn [map_default m_trie m_ready negb]. rewrite Hd, Hz, Hr, N.eqb_refl. cbn [negb].
  rewrite E, !bind_ret. exact eq_refl.
Qed.

Section prog.
  Context (dbg : bool) (vs : nat) (i : inst).
  Hypothesis Hvi : valid_inst i.
  Notation step := (hapi_step dbg (i_trie dbg i) (i_nlm vs i)).
  Notation def := (map_default (i_trie dbg i) (i_nlm vs i)).

  Lemma step_lives m ps o z m' ps' : lives dbg vs i m -> step m ps o = Ret (z, m', ps') -> lives dbg vs i m'.
  Proof.
    intros Hl E. destruct o as [k|k|j|j w]; unfold hapi_step in E.
    - apply bind_inv in E as ([[p|x] m1] & E1 & E); [|discriminate]. injection E as _ <- _.
      eapply (lives_update dbg vs i m None k (Fine (UPtr p))); [exact Hl|]. unfold i_update_oom. rewrite update_oom_none, E1. reflexivity.
    - apply bind_inv in E as (p & _ & E). injection E as _ <- _. exact Hl.
    - destruct (ps !! j) as [[p|]|]; try discriminate. apply bind_inv in E as (v & _ & E). injection E as _ <- _. exact Hl.
    - destruct (ps !! j) as [[p|]|]; try discriminate. apply bind_inv in E as (m1 & E1 & E). injection E as _ <- _.
      eapply lives_write; [exact Hl|exact E1].
  Qed.

  Lemma new_empty cb e : i_supported vs i cb e [] ->
    exists m0, i_new dbg vs i cb (2 ^ e) = Ret m0 /\ m_ready _ _ m0 = true /\ t_size _ (m_trie _ _ m0) = 0.
  Proof.
    intros Hsup. destruct (i_supported_limit _ _ _ _ _ Hvi Hsup) as (He & Hcb & Hroom & _).
    destruct Hsup as (Hvs & _). assert (HB : 16 <= N.max 16 cb) by lia.
    destruct (inst_pack dbg vs i e (N.max 16 cb) (nodes_for e [] + 2) Hvi Hvs HB ltac:(lia)) as [K _].
    pose proof (ip_ok _ _ _ _ _ _ K) as PK.
    destruct (map_new_ok _ _ _ _ _ _ _ _ _ _ PK He cb Hcb) as (m0 & E & Hf); [reflexivity|].
    exists m0. split; [exact E|]. split; [apply (mf_ready _ _ _ _ _ _ Hf)|].
    apply (so_fresh _ _ _ _ _ _ _ _ _ _ PK _ _ _ (mf_store _ _ _ _ _ _ Hf)).
  Qed.
  (** The first update of a default-constructed map makes the map(0, 32) that it then updates. *)
  Lemma default_update m0 k : i_new dbg vs i 0 (2 ^ 5) = Ret m0 -> m_ready _ _ m0 = true -> t_size _ (m_trie _ _ m0) = 0 ->
    map_update dbg (i_trie dbg i) (i_nlm vs i) def k = map_update dbg _ _ m0 k.
  Proof.
    intros E Hr Hz. apply (default_update_gen dbg _ _ m0 k (i_default_size dbg i) E Hr Hz).
  Qed.

  (** [m] with the pointers [ps] is what the contents [c] describe. *)
  Definition follows (c : contents) (m : i_map dbg vs i) (ps : list (option ptr)) : Prop :=
    exists ops xs m0 m1, Forall (hvalid_op vs) ops /\ c_keys c = hupdated ops /\
      life_run vs (settles_after i) (mkLife ∅ [] []) ops = Some (xs, c_life c) /\
      i_new dbg vs i (c_cb c) (2 ^ c_e c) = Ret m0 /\ i_hrun dbg vs i m0 ops = Ret (xs, m1, ps) /\
      i_size dbg vs i m = N.of_nat (size (lf_dict (c_life c))) /\
      (m = m1 \/ (m = def /\ m1 = m0 /\ c_cb c = 0 /\ c_e c = 5 /\ hupdated ops = [])).

  Lemma follows_new cb e : room dbg vs i cb e [] ->
    exists m, i_new dbg vs i cb (2 ^ e) = Ret m /\ follows (empty_map cb e) m [].
  Proof.
    intros (Hsup & Hnt & Hnf).
    destruct (i_lrun_ok dbg vs i cb e [] ([], mkLife ∅ [] []) Hvi Hsup (List.Forall_nil _) Hnt eq_refl) as (m0 & E & Hy).
    exists m0. split; [exact E|]. destruct Hy as [([[xs m1] ps] & Er & Hx & Hz)|[Hx _]]; [|contradiction].
    injection Er as <- <- <-. exists [], [], m0, m0. repeat split; auto.
  Qed.
  Lemma follows_default : room dbg vs i 0 5 [] -> follows (empty_map 0 5) def [].
  Proof.
    intros H. destruct (follows_new 0 5 H) as (m & E & _). exists [], [], m, m. repeat split; auto.
    right. repeat split.
  Qed.

  Lemma follows_call cb e ks l m ps o z l' : follows (mkContents cb e ks l) m ps -> hvalid_op vs o ->
    room dbg vs i cb e (ks ++ hupdated [o]) -> life_step vs (settles_after i) l o = Some (z, l') ->
    exists m' ps', step m ps o = Ret (z, m', ps') /\ follows (mkContents cb e (ks ++ hupdated [o]) l') m' ps'.
  Proof.
    intros (ops & xs & m0 & m1 & Hv & Hk & Hl & E0 & Er & Hz & Hm) Ho (Hsup & Hnt & Hnf) Hs.
    cbn [c_keys c_life c_cb c_e] in *. subst ks. rewrite <- hupdated_app in *.
    assert (Hl2 : life_run vs (settles_after i) (mkLife ∅ [] []) (ops ++ [o]) = Some (xs ++ [z], l')).
    { rewrite life_run_app, Hl. cbn [life_run]. rewrite Hs. reflexivity. }
    assert (Hv2 : Forall (hvalid_op vs) (ops ++ [o])) by (apply Forall_app; repeat constructor; assumption).
    destruct (i_lrun_ok dbg vs i cb e (ops ++ [o]) _ Hvi Hsup Hv2 Hnt Hl2) as (m0' & E0' & Hy).
    rewrite E0 in E0'. injection E0' as <-. destruct Hy as [([[ys m2] ps2] & Ey & Hx & Hz2)|[Hx _]]; [|contradiction].
    cbn [fst snd] in Hx, Hz2. subst ys. pose proof Ey as Ey0.
    unfold i_hrun in Ey, Er. rewrite hapi_run_app, Er in Ey. cbn [bind hapi_run] in Ey.
    destruct (step m1 ps o) as [[[z1 m3] ps3]| | | |] eqn:Es; try discriminate Ey. cbn [bind] in Ey.
    injection Ey as Ez -> ->. apply app_inj_tail in Ez as [_ ->].
    assert (Hgo : follows (mkContents cb e (hupdated (ops ++ [o])) l') m2 ps2).
    { exists (ops ++ [o]), (xs ++ [z]), m0, m2. repeat split; auto. }
    destruct Hm as [->|(-> & -> & -> & -> & Hq)]; [eauto|].
    destruct (life_quiet vs _ ops [] [] _ Hq (List.Forall_nil _) Hl) as (Hd & _ & Hb). cbn [snd] in Hd, Hb.
    destruct l as [d order hs]. cbn [lf_dict lf_handles] in Hd, Hb. subst d.
    destruct o as [k|k|j|j w].
    - assert (Hsup0 : i_supported vs i 0 5 []).
      { destruct Hsup as (H1 & H2 & H3 & H4). split; [exact H1|]. split; [exact H2|]. split; [|vm_compute; lia].
        assert (Hn0 : nodes_for 5 [] = 0) by (vm_compute; reflexivity). rewrite Hn0. revert H3. apply N.le_lt_trans. lia. }
      destruct (new_empty 0 5 Hsup0) as (m0' & E0' & Hr & Hz0). rewrite E0 in E0'. injection E0' as <-.
      exists m2, ps2. split; [|exact Hgo]. unfold hapi_step in *. rewrite (default_update m0 k E0 Hr Hz0). exact Es.
    - unfold life_step in Hs. rewrite lookup_empty in Hs. injection Hs as <- <-.
      unfold hapi_step in Es. apply bind_inv in Es as (r & Ef & Es). destruct r as [p|]; [discriminate|]. injection Es as <- <-.
      exists def, (ps ++ [None]). destruct Ho as [Hkk Hlen]. destruct (valid_okey k Hkk) as [Hok _]. split.
      { unfold hapi_step, map_find. rewrite (check_key_ok k Hok). reflexivity. }
      exists (ops ++ [HFind k]), (xs ++ [Ptr false]), m0, m0. rewrite hupdated_app, Hq. cbn [c_keys c_life c_cb c_e].
      repeat split; auto. right. repeat split; auto.
    - unfold life_step in Hs. destruct (hs !! j) as [[[k p]|]|] eqn:Ej; try discriminate; apply (Forall_lookup_1 _ _ _ _ Hb) in Ej; discriminate.
    - unfold life_step in Hs. destruct (hs !! j) as [[[k p]|]|] eqn:Ej; try discriminate; apply (Forall_lookup_1 _ _ _ _ Hb) in Ej; discriminate.
  Qed.

  (** ** The objects and the variables *)
  Definition agrees (c : option (option contents)) (o : option (obj dbg vs i)) : Prop :=
    match c, o with
    | None, None => True
    | Some None, Some (m, _) => lives dbg vs i m
    | Some (Some c), Some (m, ps) => lives dbg vs i m /\ follows c m ps
    | _, _ => False
    end.
  Notation bytes := (bytes_of dbg vs i).
  Definition owned (M : pmem dbg vs i) : N := msum (fun _ o => bytes (fst o)) (pm_objs _ _ _ M).
  (** [k]: the bytes that a temporary owns. *)
  Definition good (k : N) (P : vars) (M : pmem dbg vs i) : Prop :=
    pm_alloc _ _ _ M = owned M + k /\ forall x, agrees (P !! x) (pm_objs _ _ _ M !! x).

  Lemma agrees_lives c m ps : agrees c (Some (m, ps)) -> lives dbg vs i m.
  Proof. destruct c as [[c|]|]; cbn; tauto. Qed.
  Lemma agrees_some c o : agrees (Some c) o -> exists m ps, o = Some (m, ps) /\ agrees (Some c) (Some (m, ps)).
  Proof. destruct c as [c|], o as [[m ps]|]; cbn; try tauto; eauto. Qed.
  Lemma release_none a m : lives dbg vs i m -> release dbg vs i a m = Ret (a - bytes m).
  Proof.
    intros H. destruct (C52_destroy dbg vs i m H) as (h & E & Hh). unfold release. rewrite E. cbn [bind].
    rewrite (hp_total_none h Hh), N.sub_0_r. reflexivity.
  Qed.
  Lemma moved_bytes m : lives dbg vs i m -> bytes (i_moved_from dbg vs i m) = 0.
  Proof. intros H. apply hp_total_none. exact (proj2 (C52_replaced dbg vs i m H)). Qed.
  Lemma owned_insert (objs : gmap nat (obj dbg vs i)) a x o :
    owned (mkMem _ _ _ (<[x := o]> objs) a) + match objs !! x with Some o' => bytes (fst o') | None => 0 end =
    owned (mkMem _ _ _ objs a) + bytes (fst o).
  Proof.
    unfold owned. cbn [pm_objs]. destruct (objs !! x) as [o'|] eqn:E.
    - rewrite (msum_delete _ objs x o' E), <- insert_delete_insert, msum_insert by apply lookup_delete. unfold obj in *. lia.
    - rewrite msum_insert by exact E. unfold obj in *. lia.
  Qed.
  Lemma owned_alloc objs a a' : owned (mkMem dbg vs i objs a) = owned (mkMem dbg vs i objs a').
  Proof. reflexivity. Qed.
  Lemma agrees_put (P : vars) (objs : gmap nat (obj dbg vs i)) x c m ps : (forall y, agrees (P !! y) (objs !! y)) -> agrees (Some c) (Some (m, ps)) ->
    forall y, agrees (<[x := c]> P !! y) (<[x := (m, ps)]> objs !! y).
  Proof.
    intros Hg Ha y. destruct (decide (y = x)) as [->|Hne].
    - rewrite !lookup_insert. exact Ha.
    - rewrite !lookup_insert_ne by congruence. apply Hg.
  Qed.
  Lemma put_good k P M x c m ps : good (k + bytes m) P M -> agrees (Some c) (Some (m, ps)) ->
    exists M', put dbg vs i M x (m, ps) = Ret M' /\ good k (<[x := c]> P) M'.
  Proof.
    intros [Hl Hg] Ha. unfold put. destruct M as [objs a]. cbn [pm_objs pm_alloc] in *. pose proof (Hg x) as Hx.
    pose proof (owned_insert objs a x (m, ps)) as Ho. cbn [fst] in Ho.
    destruct (objs !! x) as [[m1 ps1]|]; cbn [fst] in *.
    - rewrite (release_none a m1) by apply (agrees_lives _ _ _ Hx). cbn [bind]. eexists. split; [reflexivity|].
      split; [|apply agrees_put; assumption]. cbn [pm_alloc]. rewrite (owned_alloc _ _ a). unfold obj in *. lia.
    - cbn [bind]. eexists. split; [reflexivity|]. split; [|apply agrees_put; assumption].
      cbn [pm_alloc]. unfold obj in *. lia.
  Qed.
  Lemma new_good P M x c m : good 0 P M -> agrees (Some c) (Some (m, [])) ->
    exists M', create dbg vs i M x m = Ret M' /\ good 0 (<[x := c]> P) M'.
  Proof.
    intros [Hl Hg] Ha. unfold create. apply (put_good 0); [|exact Ha]. split; [|exact Hg]. cbn [pm_alloc].
    destruct M as [objs a]. cbn [pm_alloc pm_objs] in *. rewrite (owned_alloc _ _ a). lia.
  Qed.
  (** The members of x go elsewhere. *)
  Lemma leave_good k P M x m ps : good k P M -> pm_objs _ _ _ M !! x = Some (m, ps) -> lives dbg vs i m ->
    good (k + bytes m) (<[x := None]> P) (mkMem _ _ _ (<[x := (i_moved_from dbg vs i m, [])]> (pm_objs _ _ _ M)) (pm_alloc _ _ _ M)).
  Proof.
    intros [Hl Hg] Ex Hlv. destruct M as [objs a]. cbn [pm_objs pm_alloc] in *.
    pose proof (owned_insert objs a x (i_moved_from dbg vs i m, [])) as Ho. rewrite Ex in Ho. cbn [fst] in Ho.
    rewrite (moved_bytes m Hlv) in Ho. split; [cbn [pm_alloc]; lia|].
    cbn [pm_objs]. apply agrees_put; [exact Hg|]. apply lives_moved, Hlv.
  Qed.
  Lemma good_eq k k' P M : good k P M -> k = k' -> good k' P M.
  Proof. intros H <-. exact H. Qed.
  Lemma move_good k P M y x c : good k P M -> P !! x = Some c ->
    exists M', move_to dbg vs i M y x = Ret M' /\ good k (<[x := None]> (<[y := c]> P)) M'.
  Proof.
    intros Hg Hx. unfold move_to.
    pose proof (proj2 Hg x) as Ha. rewrite Hx in Ha. apply agrees_some in Ha as (m & ps & Eo & Ha).
    unfold get. rewrite Eo. cbn [bind fst]. pose proof (agrees_lives _ _ _ Ha) as Hlv. pose proof (lives_moved _ _ _ _ Hlv) as Hlm.
    destruct (decide (y = x)) as [->|Hne].
    { destruct (put_good k P M x None (i_moved_from dbg vs i m) []) as (M1 & E1 & Hg1); [|exact Hlm|].
      { rewrite (moved_bytes m Hlv), N.add_0_r. exact Hg. }
      exists M1. split; [exact E1|]. rewrite insert_insert. exact Hg1. }
    (* the emptied x first, then y *)
    pose proof (leave_good k P M x m ps Hg Eo Hlv) as Hg1.
    destruct (put_good k _ _ y c m ps Hg1 Ha) as (M1 & E1 & Hg2).
    unfold put in *. destruct M as [objs a]. cbn [pm_objs pm_alloc] in *.
    rewrite lookup_insert_ne in E1 by congruence.
    assert (Hy : exists a1, (match objs !! y with Some (m0, _) => release dbg vs i a m0 | None => Ret a end) = Ret a1 /\
      M1 = mkMem _ _ _ (<[y := (m, ps)]> (<[x := (i_moved_from dbg vs i m, [])]> objs)) a1).
    { unfold obj in *. destruct (objs !! y) as [[m0 ps0]|]; [destruct (release dbg vs i a m0) as [a1| | | |]; try discriminate E1|];
        cbn [bind] in E1; eexists; (split; [reflexivity|]); congruence. }
    destruct Hy as (a1 & E2 & ->). rewrite E2. cbn [bind]. eexists. split; [reflexivity|]. cbn [pm_objs pm_alloc].
    rewrite (insert_commute P) by congruence. rewrite (insert_commute objs) by congruence. exact Hg2.
  Qed.

  Theorem does_ok P M s zs P' : good 0 P M -> does dbg vs i P s zs P' ->
    exists M', p_step dbg vs i M s = Ret (zs, M') /\ good 0 P' M'.
  Proof.
    intros Hg Hd. destruct Hd as [x cb e Hr|x Hvs Hr|y x c Hx|x y c c' Hx Hy|x c Hx|x c Hx|x o cb e ks l z l' Hx Ho Hr Hs]; unfold p_step.
    - destruct (follows_new cb e Hr) as (m & E & Hf). rewrite E. cbn [bind].
      destruct (new_good P M x (Some (empty_map cb e)) m Hg) as (M1 & E1 & Hg1).
      { split; [eapply lives_new; exact E|exact Hf]. }
      rewrite E1. cbn [bind]. eauto.
    - destruct (new_good P M x (Some (empty_map 0 5)) def Hg) as (M1 & E1 & Hg1).
      { split; [apply lives_default|exact (follows_default Hr)]. }
      exists M1. split; [|exact Hg1]. exact (f_equal (fun r => let* M := r in Ret ([], M)) E1).
    - destruct (move_good 0 P M y x c Hg Hx) as (M1 & E1 & Hg1). rewrite E1. cbn [bind]. eauto.
    - unfold swap. pose proof (proj2 Hg x) as Ha. rewrite Hx in Ha. apply agrees_some in Ha as (m & ps & Eo & Ha).
      unfold get. rewrite Eo. cbn [bind fst]. pose proof (agrees_lives _ _ _ Ha) as Hlv. pose proof (lives_moved _ _ _ _ Hlv) as Hlm.
      pose proof (leave_good 0 P M x m ps Hg Eo Hlv) as Hg1.
      assert (Hy1 : exists c1, (<[x := None]> P) !! y = Some c1 /\ (x <> y -> c1 = c')).
      { destruct (decide (x = y)) as [->|Hne]; [exists None; rewrite lookup_insert; split; [reflexivity|congruence]|].
        exists c'. rewrite lookup_insert_ne by congruence. auto. }
      destruct Hy1 as (c1 & Hy1 & Hc1).
      destruct (move_good _ _ _ x y c1 Hg1 Hy1) as (M2 & E2 & Hg2).
      rewrite E2. cbn [bind].
      destruct (put_good 0 _ M2 y c m ps Hg2 Ha) as (M3 & E3 & Hg3). rewrite E3. cbn [bind].
      rewrite (release_none _ _ Hlm), (moved_bytes m Hlv), N.sub_0_r. cbn [bind]. eexists. split; [reflexivity|].
      rewrite insert_insert, (insert_insert P) in Hg3.
      assert (EP : <[y := c]> (<[x := c1]> P) = <[y := c]> (<[x := c']> P)).
      { destruct (decide (x = y)) as [->|Hne]; [rewrite !insert_insert; reflexivity|rewrite (Hc1 Hne); reflexivity]. }
      rewrite EP in Hg3. destruct M3 as [o3 a3]. exact Hg3.
    - pose proof (proj2 Hg x) as Ha. rewrite Hx in Ha. apply agrees_some in Ha as (m & ps & Eo & Ha).
      unfold get. rewrite Eo. cbn [bind fst]. rewrite (release_none _ m (agrees_lives _ _ _ Ha)). cbn [bind].
      eexists. split; [reflexivity|]. destruct M as [objs a]. cbn [pm_objs pm_alloc] in *. destruct Hg as [Hl Hg]. cbn [pm_alloc] in Hl. split.
      { cbn [pm_alloc]. unfold owned in *. cbn [pm_objs] in *. rewrite (msum_delete _ objs x _ Eo) in Hl. cbn [fst] in Hl. unfold obj in *. lia. }
      intros y. cbn [pm_objs].
      destruct (decide (y = x)) as [->|Hne]; [rewrite !lookup_delete; exact I|rewrite !lookup_delete_ne by congruence; apply Hg].
    - pose proof (proj2 Hg x) as Ha. rewrite Hx in Ha. apply agrees_some in Ha as (m & ps & Eo & Ha).
      unfold get. rewrite Eo. cbn [bind fst]. eexists. split; [|exact Hg].
      destruct Ha as [_ (ops & xs & m0 & m1 & _ & _ & _ & _ & _ & Hz & _)]. rewrite Hz. reflexivity.
    - pose proof (proj2 Hg x) as Ha. rewrite Hx in Ha. apply agrees_some in Ha as (m & ps & Eo & [Hlv Hf]).
      unfold get. rewrite Eo. cbn [bind fst snd].
      destruct (follows_call cb e ks l m ps o z l' Hf Ho Hr Hs) as (m' & ps' & E & Hf'). rewrite E. cbn [bind].
      eexists. split; [reflexivity|]. destruct M as [objs a]. cbn [pm_objs pm_alloc] in *. destruct Hg as [Hl Hg]. cbn [pm_alloc pm_objs] in *.
      pose proof (owned_insert objs a x (m', ps')) as Hw. unfold obj in *. rewrite Eo in Hw. cbn [fst] in Hw. split.
      { cbn [pm_alloc]. rewrite (owned_alloc _ _ a).
        assert (Hw' : forall w, w + bytes m = a + bytes m' -> a + bytes m' - bytes m = w + 0) by (intros w Hw'; lia).
        apply Hw'. etransitivity; [exact Hw|]. f_equal. rewrite N.add_0_r in Hl. symmetry. exact Hl. }
      cbn [pm_objs]. apply agrees_put; [exact Hg|]. split; [eapply step_lives; eassumption|exact Hf'].
  Qed.
  Theorem does_all_ok prog : forall P M zs P', good 0 P M -> does_all dbg vs i P prog zs P' ->
    exists M', p_run dbg vs i M prog = Ret (zs, M') /\ good 0 P' M'.
  Proof.
    induction prog as [|s prog IH]; intros P M zs P' Hg Hd; inversion Hd as [|P0 s0 zs1 P1 prog0 zs2 P2 H1 H2]; subst.
    - exists M. split; [reflexivity|exact Hg].
    - destruct (does_ok P M s zs1 P1 Hg H1) as (M1 & E1 & Hg1). destruct (IH P1 M1 zs2 P' Hg1 H2) as (M2 & E2 & Hg2).
      exists M2. split; [|exact Hg2]. cbn [p_run]. rewrite E1. cbn [bind]. rewrite E2. reflexivity.
  Qed.
End prog.

(** ** A map moved from *)
Lemma i_moved_compare vs i (n : nT (i_nlm vs i)) pos key : broken (n_compare (i_nlm vs i) (i_nlm_moved vs i n) pos key).
Proof.
  destruct i as [[H mf|H P mf|H mf|H P mf] [c|]].
  - exact (moved_compare vs (semi_compact_bonsai_map c) n pos key).
  - exact (moved_compare vs plain_bonsai_map n pos key).
  - exact (moved_compare vs (semi_compact_bonsai_map c) n pos key).
  - exact (moved_compare vs plain_bonsai_map n pos key).
  - exact (moved_compare vs (semi_compact_fkhash_map c) n pos key).
  - exact (moved_compare vs plain_fkhash_map n pos key).
  - exact (moved_compare vs (semi_compact_fkhash_map c) n pos key).
  - exact (moved_compare vs plain_fkhash_map n pos key).
Qed.
Lemma i_moved_root dbg i t : t_size (i_trie dbg i) t <> 0 -> exists root, t_get_root (i_trie dbg i) (i_trie_moved dbg i t) = Ret root.
Proof.
  destruct i as [[H mf|H P mf|H mf|H P mf] l]; intros Hz; unfold i_trie, i_trie_moved in *; cbn in Hz |- *;
    unfold pb_get_root, cb_get_root, pf_get_root, cf_get_root, assert_; cbn [pb_size pb_moved cb_size cb_moved pf_size pf_moved cf_size cf_moved];
    (replace (negb _) with true by (symmetry; apply negb_true_iff, N.eqb_neq, Hz)); eexists; reflexivity.
Qed.
Lemma moved_broken dbg vs i (m : i_map dbg vs i) k : m_ready _ _ m = true -> t_size _ (m_trie _ _ m) <> 0 -> okey k ->
  broken (i_find dbg vs i (i_moved_from dbg vs i m) k) /\ broken (i_update dbg vs i (i_moved_from dbg vs i m) k).
Proof.
  intros Hr Hz Hok. assert (Hk0 : k <> []) by (intros ->; destruct (okey_nil Hok)).
  destruct (i_moved_root dbg i _ Hz) as (root & Er). rewrite <- i_moved_size in Hz.
  assert (Hfrom : t_size _ (m_trie _ _ (i_moved_from dbg vs i m)) <> 0 /\
    t_get_root _ (m_trie _ _ (i_moved_from dbg vs i m)) = Ret root /\ m_ready _ _ (i_moved_from dbg vs i m) = true) by (repeat split; assumption).
  assert (Hcmp : forall pos key, broken (n_compare (i_nlm vs i) (m_nlm _ _ (i_moved_from dbg vs i m)) pos key))
    by (intros pos key; apply i_moved_compare).
  revert Hfrom Hcmp. generalize (i_moved_from dbg vs i m). clear m Hr Hz Er. intros m (H1 & H2 & H3) Hcmp. split.
  - unfold i_find, map_find. rewrite (check_key_ok k Hok), bind_ret, H3, (proj2 (N.eqb_neq _ _) H1). cbn [negb orb].
    rewrite H2, bind_ret. apply broken_loop. cbn beta iota. destruct k as [|c k]; [congruence|]. apply broken_bind, Hcmp.
  - unfold i_update, map_update, update_body. rewrite (check_key_ok k Hok), bind_ret, (proj2 (N.eqb_neq _ _) H1).
    rewrite H2, bind_ret. apply broken_loop. cbn beta iota. destruct k as [|c k]; [congruence|]. apply broken_bind, Hcmp.
Qed.
