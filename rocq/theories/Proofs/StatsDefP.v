(** A history on a default-constructed map in the statistics build: the one on map(0, 32). *)
From Verif.Model Require Import Histogram.
From Verif.Props Require Import InstSpec.
From Verif.Proofs Require Import InstP ProgP StatsP HistP.
Local Open Scope N_scope.

Section default.
  Context (dbg : bool) (TS : trie_ops) (NO : nlm_ops).
  Context (Hz : t_size TS (t_default TS) = 0).

  Lemma stats_default_update s0 k : stats_new TS NO 0 32 = Ret s0 -> m_ready _ _ (sm_map _ _ s0) = true ->
    t_size TS (m_trie _ _ (sm_map _ _ s0)) = 0 -> stats_update dbg TS NO (stats_default TS NO) k = stats_update dbg TS NO s0 k.
  Proof.
    intros E Hr Hs. unfold stats_update. unfold stats_default at 1 2 3. cbn [sm_map map_default m_trie m_ready].
    rewrite Hz, Hs, N.eqb_refl, E, Hr. reflexivity.
  Qed.
  Lemma stats_default_find s0 k : m_ready _ _ (sm_map _ _ s0) = true -> t_size TS (m_trie _ _ (sm_map _ _ s0)) = 0 ->
    map_find dbg TS NO (map_default TS NO) k = (let* _ := check_key k in Ret None) /\
    map_find dbg TS NO (sm_map _ _ s0) k = (let* _ := check_key k in Ret None).
  Proof.
    intros Hr Hs. unfold map_find. cbn [map_default m_ready]. rewrite Hs, N.eqb_refl, orb_true_r. split; reflexivity.
  Qed.
  Lemma stats_default_run s0 : stats_new TS NO 0 32 = Ret s0 -> m_ready _ _ (sm_map _ _ s0) = true ->
    t_size TS (m_trie _ _ (sm_map _ _ s0)) = 0 -> m_size _ _ (sm_map _ _ s0) = 0 -> forall ops, updated ops <> [] ->
    stats_run dbg TS NO (stats_default TS NO) ops = stats_run dbg TS NO s0 ops.
  Proof.
    intros E Hr Hs Hn. induction ops as [|[k w|k] ops IH]; intros Hu; [destruct (Hu eq_refl)| |].
    - cbn [stats_run stats_step]. rewrite (stats_default_update s0 k E Hr Hs). reflexivity.
    - cbn [stats_run stats_step]. cbn [stats_default sm_map] in *.
      destruct (stats_default_find s0 k Hr Hs) as [-> ->].
      destruct (check_key k) as [[]| | | |]; cbn [bind]; try reflexivity.
      rewrite Hn. cbn [map_default m_size]. fold (stats_default TS NO). rewrite (IH Hu). reflexivity.
  Qed.
  Lemma stats_default_none : forall ops xs s, updated ops = [] ->
    stats_run dbg TS NO (stats_default TS NO) ops = Ret (xs, s) -> s = stats_default TS NO.
  Proof.
    induction ops as [|[k w|k] ops IH]; intros xs s Hu; [intros [= _ <-]; reflexivity|discriminate Hu|].
    cbn [stats_run stats_step]. cbn [stats_default sm_map]. unfold map_find at 1. cbn [map_default m_ready negb orb].
    destruct (check_key k) as [[]| | | |]; cbn [bind]; try discriminate.
    fold (map_default TS NO). fold (stats_default TS NO).
    destruct (stats_run dbg TS NO (stats_default TS NO) ops) as [[ys s']| | | |] eqn:E; try discriminate.
    cbn [bind]. intros [= _ <-]. exact (IH _ _ Hu eq_refl).
  Qed.
End default.

Lemma supported_nil vs i : valid_inst i -> (1 <= vs)%nat -> i_supported vs i 0 5 [].
Proof.
  intros Hvi Hvs.
  split; [exact Hvs|]. split; [vm_compute; discriminate|]. split; [|vm_compute; lia].
  assert (Hn0 : nodes_for 5 [] = 0) by (vm_compute; reflexivity). rewrite Hn0.
  apply N.lt_le_trans with (2 ^ 49 * 1 / 100); [reflexivity|]. apply N.div_le_mono; [lia|]. apply N.mul_le_mono_l, (proj1 Hvi).
Qed.
Lemma new_size (TS : trie_ops) NO cb lam s : stats_new TS NO cb lam = Ret s -> m_size _ _ (sm_map _ _ s) = 0.
Proof.
  unfold stats_new. destruct (map_new TS NO cb lam) as [m| | | |] eqn:H; try discriminate. intros [= <-]. cbn [sm_map].
  unfold map_new in H.
  repeat match type of H with
         | bind ?o _ = _ => destruct o as [?| | | |]; cbn [bind] in H; try discriminate H
         | (let _ := _ in _) = _ => cbv zeta in H
         end.
  injection H as <-. reflexivity.
Qed.
Lemma s_new_empty dbg vs i : valid_inst i -> (1 <= vs)%nat ->
  exists s0, s_new dbg vs i 0 32 = Ret s0 /\ m_ready _ _ (sm_map _ _ s0) = true /\
    t_size (s_trie dbg i) (m_trie _ _ (sm_map _ _ s0)) = 0 /\ m_size _ _ (sm_map _ _ s0) = 0.
Proof.
  intros Hvi Hvs. destruct (new_empty dbg vs i Hvi 0 5 (supported_nil vs i Hvi Hvs)) as (m0 & E & Hr & Hz).
  change (2 ^ 5) with 32 in E. rewrite (er_new_i dbg vs i 0 32) in E.
  destruct (s_new dbg vs i 0 32) as [s0| | | |] eqn:Es; try discriminate E. injection E as <-.
  exists s0. split; [reflexivity|]. split; [exact Hr|]. split; [exact Hz|]. exact (new_size _ _ _ _ _ Es).
Qed.
Lemma s_default_size dbg i : t_size (s_trie dbg i) (t_default (s_trie dbg i)) = 0.
Proof. exact (OwnP.i_default_size dbg i). Qed.
Lemma s_default_run dbg vs i ops : valid_inst i -> (1 <= vs)%nat -> updated ops <> [] ->
  s_run dbg vs i (s_default dbg vs i) ops = let* s := s_new dbg vs i 0 32 in s_run dbg vs i s ops.
Proof.
  intros Hvi Hvs Hu. destruct (s_new_empty dbg vs i Hvi Hvs) as (s0 & E & Hr & Hs & Hn). rewrite E.
  exact (stats_default_run dbg _ _ (s_default_size dbg i) s0 E Hr Hs Hn ops Hu).
Qed.
Lemma h_default_run dbg vs i ops : valid_inst i -> (1 <= vs)%nat -> updated ops <> [] ->
  h_run dbg vs i (h_default dbg vs i) ops = let* s := h_new dbg vs i 0 32 in h_run dbg vs i s ops.
Proof.
  intros Hvi Hvs Hu. destruct (s_new_empty dbg vs i Hvi Hvs) as (s0 & E & Hr & Hs & Hn).
  rewrite (h_new_same dbg vs i 0 32) in E.
  destruct (h_new dbg vs i 0 32) as [h0| | | |] eqn:Eh; try discriminate E. injection E as <-.
  apply (stats_default_run dbg (h_trie dbg i) (s_nlm vs i)) with (s0 := h0); [|exact Eh| | | |exact Hu].
  - pose proof (s_default_size dbg i) as H. pose proof (h_default_same dbg vs i) as E.
    apply (f_equal (fun s => t_size (s_trie dbg i) (m_trie _ _ (sm_map _ _ s)))) in E.
    cbn [h_rest h_default stats_default s_default sm_map m_trie map_default] in E. exact (eq_trans E H).
  - exact Hr.
  - exact Hs.
  - exact Hn.
Qed.
