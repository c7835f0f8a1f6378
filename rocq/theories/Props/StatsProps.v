(** C54: the counters of the POPLAR_EXTRA_STATS build: num_resize() is the number of doublings of the table, num_steps_
    (which rate_steps() divides by size()) the number of trie nodes that are no keys, sum_length_ the total length of the
    labels and max_length_ the length of the longest one (which show_stats prints); counting changes nothing else. *)
From Verif.Model Require Export Stats.
From Verif.Props Require Export InstProps ShareSpec.
From Verif.Proofs Require Import StatsP StatsDefP.
From Verif.Proofs Require Import FastP.
Local Open Scope N_scope.

(** Every history has the same outcome in both builds: the same results, sizes and capacity, or the same exception,
    assertion failure or undefined behaviour. *)
Theorem C54_same : forall dbg vs i cb lambda ops,
  (let* s := s_new dbg vs i cb lambda in
   let* r := s_run dbg vs i s ops in Ret (fst r, s_size dbg vs i (snd r), s_capa_size dbg vs i (snd r), s_nodes dbg vs i (snd r))) =
  (let* m := i_new dbg vs i cb lambda in
   let* r := i_run dbg vs i m ops in Ret (fst r, i_size dbg vs i (snd r), i_capa_size dbg vs i (snd r), i_nodes dbg vs i (snd r))).
Proof.
  intros dbg vs i cb lambda ops. rewrite (er_new_i dbg vs i cb lambda).
  destruct (s_new dbg vs i cb lambda) as [s| | | |]; try reflexivity. cbn [bind].
  rewrite (er_run_i dbg vs i s ops). destruct (s_run dbg vs i s ops) as [[xs s']| | | |]; reflexivity.
Qed.
Theorem C54_same_default : forall dbg vs i ops,
  (let* r := s_run dbg vs i (s_default dbg vs i) ops in
   Ret (fst r, s_size dbg vs i (snd r), s_capa_size dbg vs i (snd r), s_nodes dbg vs i (snd r))) =
  (let* r := i_run dbg vs i (map_default (i_trie dbg i) (i_nlm vs i)) ops in
   Ret (fst r, i_size dbg vs i (snd r), i_capa_size dbg vs i (snd r), i_nodes dbg vs i (snd r))).
Proof.
  intros dbg vs i ops. pose proof (er_run_i dbg vs i (s_default dbg vs i) ops) as E.
  rewrite er_default_i in E. rewrite E.
  destruct (s_run dbg vs i (s_default dbg vs i) ops) as [[xs s']| | | |]; reflexivity.
Qed.

(** num_resize() doublings lead from the initial capacity to the present one; whatever the keys. *)
Theorem C54_resize : forall dbg vs i cb lambda ops s0 seen s,
  s_new dbg vs i cb lambda = Ret s0 -> s_run dbg vs i s0 ops = Ret (seen, s) ->
  s_capa_size dbg vs i s = 2 ^ (N.max 16 cb + s_num_resize dbg vs i s).
Proof. exact i_resize_ok. Qed.
Theorem C54_resize_default : forall dbg vs i ops seen s,
  s_run dbg vs i (s_default dbg vs i) ops = Ret (seen, s) -> updated ops <> [] ->
  s_capa_size dbg vs i s = 2 ^ (16 + s_num_resize dbg vs i s).
Proof. exact i_resize_default_ok. Qed.

(** Every node of the trie is a key's or was counted as a step. *)
Theorem C54_steps : forall dbg vs i cb e ops, valid_inst i -> i_supported vs i cb e (updated ops) ->
  Forall (valid_op vs) ops -> i_no_trap dbg i (updated ops) ->
  exists s0, s_new dbg vs i cb (2 ^ e) = Ret s0 /\
    i_yields i cb e (updated ops) (s_run dbg vs i s0 ops) (fun '(seen, s) => seen = fst (spec_run vs ∅ ops) /\
      s_num_steps dbg vs i s + N.of_nat (size (final vs ops)) = s_nodes dbg vs i s /\
      s_nodes dbg vs i s <= nodes_for e (updated ops)).
Proof.
  intros dbg vs i cb e ops Hvi Hsup Hv Hnt.
  destruct (i_run_ok dbg vs i cb e ops Hvi Hsup Hv Hnt) as (m0 & E & Y).
  pose proof (er_new_i dbg vs i cb (2 ^ e)) as E0. rewrite E in E0.
  destruct (s_new dbg vs i cb (2 ^ e)) as [s0| | | |] eqn:Es; try discriminate. injection E0 as ->.
  exists s0. split; [reflexivity|]. rewrite (er_run_i dbg vs i s0 ops) in Y.
  destruct (s_run dbg vs i s0 ops) as [[xs s]| | | |] eqn:Er; cbn [bind fst snd] in Y; unfold i_yields in *.
  - left. exists (xs, s). split; [reflexivity|]. destruct Y as [([ys m] & [= <- <-] & HY)|[_ HY]]; [|discriminate HY].
    assert (Hr : i_reaches dbg vs i cb e ops (erl_i dbg vs i s)).
    { exists (erl_i dbg vs i s0), xs. split; [exact E|]. rewrite (er_run_i dbg vs i s0 ops), Er. reflexivity. }
    destruct (C46_bounds dbg vs i cb e ops _ Hvi Hsup Hv Hnt Hr) as (Hsz & Hb & _).
    split; [exact HY|]. rewrite <- Hsz.
    split; [exact (proj1 (i_stats_inv dbg vs i cb e ops s0 xs s Hvi Hsup Hv Hnt Es Er))|exact (proj2 Hb)].
  - destruct Y as [(x & HY & _)|[_ HY]]; discriminate HY.
  - destruct Y as [(x & HY & _)|[_ HY]]; discriminate HY.
  - right. destruct Y as [(x & HY & _)|HY]; [discriminate HY|split; [exact (proj1 HY)|reflexivity]].
  - destruct Y as [(x & HY & _)|[_ HY]]; discriminate HY.
Qed.

(** So nothing is counted when no key is longer than lambda. *)
Corollary C54_no_steps : forall dbg vs i cb e ops s0 seen s, valid_inst i -> i_supported vs i cb e (updated ops) ->
  Forall (valid_op vs) ops -> i_no_trap dbg i (updated ops) ->
  Forall (fun k => N.of_nat (length k) <= 2 ^ e) (updated ops) ->
  s_new dbg vs i cb (2 ^ e) = Ret s0 -> s_run dbg vs i s0 ops = Ret (seen, s) ->
  s_num_steps dbg vs i s = 0.
Proof.
  intros dbg vs i cb e ops s0 seen s Hvi Hsup Hv Hnt Hs Es Er.
  destruct (C54_steps dbg vs i cb e ops Hvi Hsup Hv Hnt) as (s1 & E1 & Y). rewrite Es in E1. injection E1 as <-.
  unfold i_yields in Y. rewrite Er in Y. destruct Y as [([ys s2] & [= <- <-] & _ & H1 & H2)|[_ HY]]; [|discriminate HY].
  assert (Hd : dom (final vs ops) = list_to_set (updated ops)) by apply dom_final.
  unfold nodes_for in H2. rewrite nb_short in H2.
  - rewrite <- Hd, size_dom in H2. lia.
  - intros k Hk. apply elem_of_list_to_set in Hk. rewrite Forall_forall in Hs. apply Hs, Hk.
Qed.

(** The table is doubled as often as the keys and the steps need, and no more: the nodes fit below the load limit, and
    without the last doubling they would have exceeded it (up to rounding). *)
Corollary C54_growth : forall dbg vs i cb e ops s0 seen s, valid_inst i -> i_supported vs i cb e (updated ops) ->
  Forall (valid_op vs) ops -> i_no_trap dbg i (updated ops) ->
  s_new dbg vs i cb (2 ^ e) = Ret s0 -> s_run dbg vs i s0 ops = Ret (seen, s) ->
  let n := s_num_steps dbg vs i s + s_size dbg vs i s in
  let r := s_num_resize dbg vs i s in
  n <= max_size_of (2 ^ (N.max 16 cb + r)) (i_mf i) /\
  (r = 0 \/ i_mf i * 2 ^ (N.max 16 cb + r) <= 200 * (n + 8)).
Proof.
  intros dbg vs i cb e ops s0 seen s Hvi Hsup Hv Hnt Es Er.
  pose proof (er_new_i dbg vs i cb (2 ^ e)) as E0. rewrite Es in E0. cbn [bind] in E0.
  assert (Hr : i_reaches dbg vs i cb e ops (erl_i dbg vs i s)).
  { exists (erl_i dbg vs i s0), seen. split; [exact E0|]. rewrite (er_run_i dbg vs i s0 ops), Er. reflexivity. }
  destruct (C46_bounds dbg vs i cb e ops _ Hvi Hsup Hv Hnt Hr) as (_ & _ & b & Hc & Hb & _ & _ & H1 & H2 & H3).
  pose proof (i_resize_ok dbg vs i cb (2 ^ e) ops s0 seen s Es Er) as Hz.
  pose proof (proj1 (i_stats_inv dbg vs i cb e ops s0 seen s Hvi Hsup Hv Hnt Es Er)) as Hn.
  cbv zeta. rewrite Hn. 
  assert (Eb : b = N.max 16 cb + s_num_resize dbg vs i s).
  { apply (N.pow_inj_r 2); [lia|]. rewrite <- Hz, <- Hc. reflexivity. }
  rewrite <- Eb. split.
  - destruct (is_fkhash i); [apply H2; reflexivity|]. apply N.lt_le_incl, H1. reflexivity.
  - destruct H3 as [H3|H3]; [left; lia|right; exact H3].
Qed.

(** The labels together are as long as the trie of the keys says ([label_total], ShareSpec.v), whichever store keeps them
    and in whatever order the keys came; on average they are not longer than the longest, and that is not longer than
    the longest key. *)
Theorem C54_lengths : forall dbg vs i cb e ops s0 seen s, valid_inst i -> i_supported vs i cb e (updated ops) ->
  Forall (valid_op vs) ops -> i_no_trap dbg i (updated ops) ->
  s_new dbg vs i cb (2 ^ e) = Ret s0 -> s_run dbg vs i s0 ops = Ret (seen, s) ->
  s_sum_length dbg vs i s = label_total (final vs ops) mod 2 ^ 64 /\
  label_total (final vs ops) <= N.of_nat (size (final vs ops)) * s_max_length dbg vs i s /\
  s_max_length dbg vs i s <= longest (final vs ops).
Proof.
  intros dbg vs i cb e ops s0 seen s Hvi Hsup Hv Hnt Es Er.
  exact (proj2 (i_stats_inv dbg vs i cb e ops s0 seen s Hvi Hsup Hv Hnt Es Er)).
Qed.

(** A default-constructed map counts nothing before the first update, and from then on what map(0, 32) would have: all
    of the above holds of it with capacity 0 and lambda 32. *)
Theorem C54_default : forall dbg vs i ops, valid_inst i -> (1 <= vs)%nat -> updated ops <> [] ->
  s_run dbg vs i (s_default dbg vs i) ops = let* s := s_new dbg vs i 0 32 in s_run dbg vs i s ops.
Proof. exact s_default_run. Qed.
Theorem C54_default_fresh : forall dbg vs i ops seen s, s_run dbg vs i (s_default dbg vs i) ops = Ret (seen, s) ->
  updated ops = [] ->
  [s_num_resize dbg vs i s; s_num_steps dbg vs i s; s_max_length dbg vs i s; s_sum_length dbg vs i s;
   s_size dbg vs i s; s_nodes dbg vs i s] = [0; 0; 0; 0; 0; 0].
Proof.
  intros dbg vs i ops seen s H Hu. rewrite (stats_default_none dbg _ _ ops seen s Hu H).
  unfold s_nodes. rewrite (s_default_size dbg i : t_size (s_trie dbg i) (m_trie _ _ (sm_map _ _ (stats_default _ _))) = 0). reflexivity.
Qed.

(** ** The hypotheses are met *)
(** The default-constructed map makes map(0, 32) at its first update: "abcdef" and "abX" as below. *)
Example stats_default_demo :
  (let* a := s_run true 4 demo_inst (s_default true 4 demo_inst) [Find (key_of [97])] in
   let* r := s_run true 4 demo_inst (snd a) [Update (key_of [97; 98; 99; 100; 101; 102]) None; Find (key_of [97]); Update (key_of [97; 98; 88]) None] in
   Ret (fst a, map (fun x => snd x) (fst r), [s_num_resize _ _ _ (snd r); s_num_steps _ _ _ (snd r); s_max_length _ _ _ (snd r); s_sum_length _ _ _ (snd r)],
        s_capa_size _ _ _ (snd r))) =
  Ret ([(Found None, 0)], [1; 1; 2], [0; 0; 7; 8], 2 ^ 16).
Proof. run. Qed.
(** lambda = 2: "tech" and "tea" differ after two bytes, which takes a step; the hypotheses of the theorems for this
    instantiation and history are in [demo_valid] (InstProps.v). *)
Example stats_demo :
  (let* s := s_new true 4 demo_inst 0 2 in let* r := s_run true 4 demo_inst s demo in
   Ret (s_num_steps _ _ _ (snd r), s_size _ _ _ (snd r), s_nodes _ _ _ (snd r), s_num_resize _ _ _ (snd r), s_capa_size _ _ _ (snd r))) =
  Ret (1, 3, 4, 0, 2 ^ 16).
Proof. run. Qed.
Definition low_inst : inst := mkInst (T_plain_fkhash (PlainHasher vigna_hash) 1) None.
(** "abcdef" and "abX": the labels are "abcdef\0" and "\0", or "abX\0" and "def\0". *)
Definition two : list op := [Update (key_of [97; 98; 99; 100; 101; 102]) None; Update (key_of [97; 98; 88]) None].
Definition two_rev : list op := [Update (key_of [97; 98; 88]) None; Update (key_of [97; 98; 99; 100; 101; 102]) None].
Definition lengths_of (i : inst) (ops : list op) : outcome (N * N) :=
  let* s := s_new true 4 i 0 16 in let* r := s_run true 4 i s ops in
  Ret (s_sum_length _ _ _ (snd r), s_max_length _ _ _ (snd r)).
Example stats_lengths_demo : lengths_of demo_inst two = Ret (8, 7) /\ lengths_of low_inst two_rev = Ret (8, 4) /\
  label_total (final 4 two) = 8 /\ label_total (final 4 two_rev) = 8 /\ longest (final 4 two) = 7.
Proof. split; [run|]. split; [run|]. repeat split; vm_compute; reflexivity. Qed.
Example stats_lengths_valid : Forall (fun ops => i_supported 4 demo_inst 0 4 (updated ops) /\ Forall (valid_op 4) ops) [two; two_rev].
Proof.
  assert (H : forall ops, (size (alphabet (updated ops)) <=? 254)%nat = true -> (nodes_for 4 (updated ops) <=? 1000) = true ->
      Forall (valid_op 4) ops -> i_supported 4 demo_inst 0 4 (updated ops) /\ Forall (valid_op 4) ops).
  { intros ops H1 H2 H3. split; [|exact H3]. split; [lia|]. split; [vm_compute; discriminate|]. split.
    - apply N.leb_le in H2. eapply N.le_lt_trans; [apply N.add_le_mono_r, H2|]. vm_compute. reflexivity.
    - apply Nat.leb_le, H1. }
  assert (HV : forall s, s <> [] -> Forall (fun c => 0 < c < 256) s -> (length s <= 10)%nat -> valid_op 4 (Update (key_of s) None)).
  { intros s Hs Hc Hl. split; [exists s; split; [reflexivity|exact Hc]|]. split; [|exact I].
    assert (length (key_of s) <= 11)%nat by (unfold key_of; rewrite app_length; cbn [length]; lia).
    lia. }
  constructor; [|constructor; [|constructor]]; (apply H; [vm_compute; reflexivity|vm_compute; reflexivity|]);
    (constructor; [|constructor; [|constructor]]); (apply HV; [discriminate|repeat constructor; lia|cbn; lia]).
Qed.
(** A load limit of 1 %: 660 keys need one doubling. *)
Definition many (n : nat) : list op := map (fun j => Update [1 + N.of_nat j mod 100; 1 + N.of_nat j / 100; 0] None) (seq 0 n).
Example stats_resize_demo :
  (let* s := s_new false 4 low_inst 0 2 in let* r := s_run false 4 low_inst s (many 660) in
   Ret (s_num_steps _ _ _ (snd r), s_size _ _ _ (snd r), s_nodes _ _ _ (snd r), s_num_resize _ _ _ (snd r), s_capa_size _ _ _ (snd r))) =
  Ret (0, 660, 660, 1, 2 ^ 17).
Proof. run. Qed.
Example stats_valid : valid_inst low_inst /\ i_supported 4 low_inst 0 1 (updated (many 660)) /\
  Forall (valid_op 4) (many 660) /\ i_no_trap false low_inst (updated (many 660)) /\
  valid_inst demo_inst /\ i_supported 4 demo_inst 0 4 (updated demo) /\
  Forall (fun k => N.of_nat (length k) <= 2 ^ 4) (updated demo).
Proof.
  split; [split; [cbn; lia|split; exact I]|]. split.
  { split; [lia|]. split; [vm_compute; discriminate|]. split; [vm_compute; reflexivity|].
    assert (H : (size (alphabet (updated (many 660))) <=? 254)%nat = true) by (vm_compute; reflexivity). apply Nat.leb_le, H. }
  split.
  { apply Forall_forall. intros o Ho. unfold many in Ho. apply elem_of_list_fmap in Ho as (j & -> & Hj). apply elem_of_seq in Hj.
    assert (H1 : N.of_nat j mod 100 < 100) by (apply N.mod_lt; discriminate).
    assert (H2 : N.of_nat j / 100 < 7) by (apply N.div_lt_upper_bound; lia).
    split; [|split; [reflexivity|exact I]].
    exists [1 + N.of_nat j mod 100; 1 + N.of_nat j / 100]. split; [reflexivity|].
    generalize dependent (N.of_nat j mod 100). generalize dependent (N.of_nat j / 100). intros a Ha b Hb.
    repeat constructor; lia. }
  split; [intros H; discriminate H|].
  split; [apply demo_valid|]. split.
  { split; [lia|]. split; [vm_compute; discriminate|]. split; [vm_compute; reflexivity|].
    assert (H : (size (alphabet (updated demo)) <=? 254)%nat = true) by (vm_compute; reflexivity). apply Nat.leb_le, H. }
  repeat constructor; vm_compute; discriminate.
Qed.

Definition stats_props := (@C54_same, @C54_same_default, @C54_resize, @C54_resize_default, @C54_steps, @C54_no_steps, @C54_growth, @C54_lengths, @C54_default,
  @C54_default_fresh).
Print Assumptions stats_props.
