(** C57: the histogram num_dsps_ of the compact tries in the POPLAR_EXTRA_STATS build, which show_stats prints as rates of
    the nodes: how many nodes keep their displacement in the slot itself, in the quotient table and in the last table. *)
From Verif.Model Require Export Histogram.
From Verif.Props Require Export StatsProps.
From Verif.Proofs Require Import HistP StatsDefP.
From Verif.Proofs Require Import FastP.
Local Open Scope N_scope.

(** Counting changes nothing else: every history has the same outcome with and without the histogram, and leaves the
    same map and the same other counters. *)
Theorem C57_same : forall dbg vs i cb lambda ops,
  (let* s := s_new dbg vs i cb lambda in s_run dbg vs i s ops) =
  (let* s := h_new dbg vs i cb lambda in
   let* r := h_run dbg vs i s ops in Ret (fst r, h_rest dbg vs i (snd r))).
Proof.
  intros dbg vs i cb lambda ops. rewrite (h_new_same dbg vs i cb lambda).
  destruct (h_new dbg vs i cb lambda) as [s| | | |]; try reflexivity. cbn [bind]. apply h_run_same.
Qed.
Theorem C57_same_default : forall dbg vs i ops,
  s_run dbg vs i (s_default dbg vs i) ops =
  (let* r := h_run dbg vs i (h_default dbg vs i) ops in Ret (fst r, h_rest dbg vs i (snd r))).
Proof. intros dbg vs i ops. rewrite <- h_default_same. apply h_run_same. Qed.

(** A compact trie counts every node but the root, once, whatever was inserted and however often the table was doubled;
    the last two counters are the numbers of entries of the two auxiliary tables. *)
Definition counted (dbg : bool) (vs : nat) (i : inst) (s : h_map dbg vs i) : Prop :=
  let nodes := s_nodes dbg vs i (h_rest dbg vs i s) in
  exists n0 n1 n2, h_aux_sizes dbg vs i s = Some (n1, n2) /\ h_dsps dbg vs i s = (n0, n1, n2) /\
    if nodes =? 0 then n0 + n1 + n2 = 0 else n0 + n1 + n2 + 1 = nodes.
Lemma aux_some dbg vs i s : i_par i <> None -> exists p, h_aux_sizes dbg vs i s = Some p.
Proof.
  destruct i as [[H mf|H P mf|H mf|H P mf] l]; cbn [i_par i_t]; intros Hp; try (destruct (Hp eq_refl));
    eexists; exact eq_refl.
Qed.
Theorem C57_histogram : forall dbg vs i cb e ops, valid_inst i -> i_par i <> None -> i_supported vs i cb e (updated ops) ->
  Forall (valid_op vs) ops -> i_no_trap dbg i (updated ops) ->
  exists s0, h_new dbg vs i cb (2 ^ e) = Ret s0 /\
    i_yields i cb e (updated ops) (h_run dbg vs i s0 ops) (fun '(seen, s) => seen = fst (spec_run vs ∅ ops) /\ counted dbg vs i s).
Proof.
  intros dbg vs i cb e ops Hvi Hp Hsup Hv Hnt.
  destruct (C54_steps dbg vs i cb e ops Hvi Hsup Hv Hnt) as (s1 & E & Y). rewrite (h_new_same dbg vs i cb (2 ^ e)) in E.
  destruct (h_new dbg vs i cb (2 ^ e)) as [s0| | | |] eqn:Es; try discriminate. injection E as <-.
  exists s0. split; [reflexivity|]. rewrite (h_run_same dbg vs i s0 ops) in Y. unfold i_yields in *.
  destruct (h_run dbg vs i s0 ops) as [[xs s]| | | |] eqn:Er; cbn [bind fst snd] in Y.
  - left. exists (xs, s). split; [reflexivity|]. destruct Y as [([ys s2] & [= <- <-] & HY & _)|[_ HY]]; [|discriminate HY].
    split; [exact HY|]. destruct (aux_some dbg vs i s Hp) as [[n1 n2] Ea].
    destruct (i_hist_inv dbg vs i cb e ops s0 xs s n1 n2 Hvi Hsup Hv Hnt Es Er Ea) as (n0 & H1 & H2).
    exists n0, n1, n2. split; [exact Ea|]. split; [exact H1|]. cbv zeta in H2. destruct (N.eqb_spec (s_nodes dbg vs i (h_rest dbg vs i s)) 0) as [H0|_]; [rewrite H0 in H2; lia|exact H2].
  - destruct Y as [(x & HY & _)|[_ HY]]; discriminate HY.
  - destruct Y as [(x & HY & _)|[_ HY]]; discriminate HY.
  - right. destruct Y as [(x & HY & _)|HY]; [discriminate HY|split; [exact (proj1 HY)|reflexivity]].
  - destruct Y as [(x & HY & _)|[_ HY]]; discriminate HY.
Qed.

(** In terms of the other counters: the histogram adds up to the keys and the steps without the root. *)
Corollary C57_total : forall dbg vs i cb e ops s0 seen s, valid_inst i -> i_par i <> None -> i_supported vs i cb e (updated ops) ->
  Forall (valid_op vs) ops -> i_no_trap dbg i (updated ops) -> updated ops <> [] ->
  h_new dbg vs i cb (2 ^ e) = Ret s0 -> h_run dbg vs i s0 ops = Ret (seen, s) ->
  let '(n0, n1, n2) := h_dsps dbg vs i s in
  n0 + n1 + n2 + 1 = s_num_steps dbg vs i (h_rest dbg vs i s) + N.of_nat (size (final vs ops)).
Proof.
  intros dbg vs i cb e ops s0 seen s Hvi Hp Hsup Hv Hnt Hne Es Er.
  destruct (C57_histogram dbg vs i cb e ops Hvi Hp Hsup Hv Hnt) as (s1 & E1 & Y). rewrite Es in E1. injection E1 as <-.
  unfold i_yields in Y. rewrite Er in Y. destruct Y as [([ys s2] & [= <- <-] & _ & Hc)|[_ HY]]; [|discriminate HY].
  destruct Hc as (n0 & n1 & n2 & _ & -> & Hc).
  destruct (C54_steps dbg vs i cb e ops Hvi Hsup Hv Hnt) as (s1 & E1 & Y). rewrite (h_new_same dbg vs i cb (2 ^ e)), Es in E1.
  injection E1 as <-. rewrite (h_run_same dbg vs i s0 ops), Er in Y. cbn [bind fst snd] in Y. unfold i_yields in Y.
  destruct Y as [([ys s2] & [= <- <-] & _ & H1 & _)|[_ HY]]; [|discriminate HY]. rewrite H1.
  assert (Hz : size (final vs ops) <> 0%nat).
  { intros H0. assert (Hd : dom (final vs ops) = list_to_set (updated ops)) by apply dom_final.
    rewrite <- size_dom, Hd in H0. apply size_empty_inv in H0. destruct (updated ops) as [|k ks]; [exact (Hne eq_refl)|].
    apply (not_elem_of_empty (C := gset (list N)) k), (H0 k). cbn [list_to_set]. apply elem_of_union_l, elem_of_singleton_2. reflexivity. }
  destruct (N.eqb_spec (s_nodes dbg vs i (h_rest dbg vs i s)) 0) as [H0|_]; [lia|exact Hc].
Qed.

(** A default-constructed map has empty counts before its first update, and from then on those of map(0, 32). *)
Theorem C57_default : forall dbg vs i ops, valid_inst i -> (1 <= vs)%nat -> updated ops <> [] ->
  h_run dbg vs i (h_default dbg vs i) ops = let* s := h_new dbg vs i 0 32 in h_run dbg vs i s ops.
Proof. exact h_default_run. Qed.
Theorem C57_default_fresh : forall dbg vs i ops seen s, h_run dbg vs i (h_default dbg vs i) ops = Ret (seen, s) ->
  updated ops = [] -> h_dsps dbg vs i s = (0, 0, 0).
Proof. intros dbg vs i ops seen s H Hu. rewrite (stats_default_none dbg _ _ ops seen s Hu H). reflexivity. Qed.

(** ** The hypotheses are met *)
(** A Hasher that keeps the low bits of the symbol: children with the same symbol collide, and lambda = 256 makes the
    symbol as long as the slot number.  Two displacement bits in the slot, two in the quotient table. *)
Definition crowd : list op :=
  map (fun s => Update (key_of s) None) ([] :: flat_map (fun a => [a] :: map (fun b => [a; b]) [1; 2; 3; 4]) [1; 2; 3; 4]).
Definition crowd_bonsai : inst := mkInst (T_compact_bonsai demo_hashers (mkDP 2 2 60 75) 50) None.
Definition crowd_fkhash : inst := mkInst (T_compact_fkhash demo_hashers (mkDP 2 2 60 75) 50) None.
Definition counts (i : inst) (ops : list op) : outcome (hist * option (N * N) * N) :=
  let* s := h_new true 4 i 0 256 in let* r := h_run true 4 i s ops in
  Ret (h_dsps _ _ _ (snd r), h_aux_sizes _ _ _ (snd r), s_nodes true 4 i (h_rest true 4 i (snd r))).
Example hist_demo : counts crowd_bonsai crowd = Ret (5, 2, 13, Some (2, 13), 21) /\
  counts crowd_fkhash crowd = Ret (5, 3, 12, Some (3, 12), 21).
Proof. split; run. Qed.
Example hist_valid : Forall (fun i => valid_inst i /\ i_par i <> None /\ i_supported 4 i 0 8 (updated crowd) /\
  Forall (valid_op 4) crowd /\ i_no_trap true i (updated crowd)) [crowd_bonsai; crowd_fkhash].
Proof.
  assert (HA : (size (alphabet (updated crowd)) <= 254)%nat).
  { assert (H : (size (alphabet (updated crowd)) <=? 254)%nat = true) by (vm_compute; reflexivity). apply Nat.leb_le, H. }
  assert (HV : Forall (valid_op 4) crowd).
  { unfold crowd. apply Forall_map. repeat constructor; try (eexists; split; [reflexivity|]; repeat constructor; lia); try exact I; vm_compute; reflexivity. }
  assert (HB : bijective flip_hasher /\ bijective split_mix_hasher) by (split; [exact flip_bijective|exact HashP.split_mix_ok]).
  constructor; [|constructor; [|constructor]]; (split; [split; [cbn; lia|split; [cbn; lia|exact HB]]|]); (split; [discriminate|]);
    (split; [split; [lia|]; split; [vm_compute; discriminate|]; split; [vm_compute; reflexivity|exact HA]|]);
    (split; [exact HV|intros H; discriminate H]).
Qed.

Definition hist_props := (@C57_same, @C57_same_default, @C57_histogram, @C57_total, @C57_default, @C57_default_fresh).
Print Assumptions hist_props.
