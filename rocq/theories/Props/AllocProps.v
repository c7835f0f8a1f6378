(** C48: the memory that alloc_bytes() reports. *)
From Verif.Props Require Export AllocSpec InstProps.
From Verif.Proofs Require Import AllocP.
From Verif.Proofs Require Import FastP.
Local Open Scope N_scope.

(** After any history, alloc_bytes() of any instantiation is within the sum of: a fixed number of bits for each of
    the 2^b slots, the table of large displacements, the growing vectors, the bytes of the keys and values present,
    and the 256 bytes of the byte table; and 2^b is the initial capacity or within a constant factor of the nodes. *)
Theorem C48_alloc_bytes : forall dbg vs i cb e ops, valid_inst i -> i_supported vs i cb e (updated ops) ->
  Forall (valid_op vs) ops -> i_no_trap dbg i (updated ops) ->
  let d := final vs ops in
  let n := dict_nodes e d in
  exists m0, i_new dbg vs i cb (2 ^ e) = Ret m0 /\
    i_yields i cb e (updated ops) (i_run dbg vs i m0 ops) (fun '(_, m) =>
      exists b, i_capa_size dbg vs i m = 2 ^ b /\ (b = N.max 16 cb \/ 2 ^ b * i_mf i <= 200 * (n + 8)) /\
        forall cap bcap, 8 * i_alloc_bytes dbg vs cap bcap i m <=
          2 ^ b * (slot_bits i e b + aux_bits i + ptr_bits i) +
          8 * (aux_map_bytes i n + grown_bytes i cap bcap n + dict_bytes vs i d + 256)).
Proof.
  intros dbg vs i cb e ops Hvi Hs Hv Ht d n.
  destruct (i_bytes_ok dbg vs i cb e ops Hvi Hs Hv Ht) as (m0 & E & Y). exists m0. split; [exact E|].
  destruct Y as [([xs m] & Er & b & nodes & Hc & Hb & Hn & (_ & HT) & HL)|Y]; [left|right; exact Y].
  exists (xs, m). split; [exact Er|]. exists b. split; [exact Hc|]. split.
  - destruct Hb as [Hb|Hb]; [left; exact Hb|right]. unfold n, d. clear -Hb Hn. lia.
  - intros cap bcap. destruct (HL cap bcap) as [HL' _]. clear HL. rename HL' into HL. unfold i_alloc_bytes.
    pose proof (add64_le (i_trie_bytes dbg i (m_trie _ _ m)) (i_label_bytes vs cap bcap i (m_nlm _ _ m))) as H1.
    pose proof (add64_le (add64 (i_trie_bytes dbg i (m_trie _ _ m)) (i_label_bytes vs cap bcap i (m_nlm _ _ m))) 256) as H2.
    pose proof (aux_map_mono i _ _ Hvi Hn) as H3. pose proof (grown_mono i cap bcap _ _ Hn) as H4.
    fold d in H3, H4, HL. fold n in H3, H4. clear -HT HL H1 H2 H3 H4. nia.
Qed.

(** The trie accounts for at least its hash tables: for the plain tries this is all of it, to the bit. *)
Theorem C48_trie_bytes : forall dbg vs i cb e ops, valid_inst i -> i_supported vs i cb e (updated ops) ->
  Forall (valid_op vs) ops -> i_no_trap dbg i (updated ops) ->
  exists m0, i_new dbg vs i cb (2 ^ e) = Ret m0 /\
    i_yields i cb e (updated ops) (i_run dbg vs i m0 ops) (fun '(_, m) =>
      exists b, i_capa_size dbg vs i m = 2 ^ b /\
        2 ^ b * slot_bits i e b + aux_least i b <= 8 * i_trie_bytes dbg i (m_trie _ _ m) /\
        (i_par i = None -> 8 * i_trie_bytes dbg i (m_trie _ _ m) = 2 ^ b * slot_bits i e b)).
Proof.
  intros dbg vs i cb e ops Hvi Hs Hv Ht.
  destruct (i_bytes_ok dbg vs i cb e ops Hvi Hs Hv Ht) as (m0 & E & Y). exists m0. split; [exact E|].
  destruct Y as [([xs m] & Er & b & nodes & Hc & _ & _ & (HG & HT) & _)|Y]; [left|right; exact Y].
  exists (xs, m). split; [exact Er|]. exists b. split; [exact Hc|]. split; [exact HG|]. intros Hp.
  assert (Ha : aux_bits i = 0 /\ aux_map_bytes i nodes = 0) by (unfold aux_bits, aux_map_bytes; rewrite Hp; auto).
  assert (Ha3 : aux_least i b = 0) by (unfold aux_least; rewrite Hp; reflexivity). rewrite Ha3 in HG.
  destruct Ha as [Ha1 Ha2]. rewrite Ha1, Ha2, N.add_0_r in HT. clear -HG HT. lia.
Qed.

(** Unless that bound exceeds what a uint64_t holds, alloc_bytes() counts at least the slots, the pointers and a
    value for every key present (the label store of compact FK-hash maps keeps its last labels in a buffer). *)
Theorem C48_at_least : forall dbg vs i cb e ops, valid_inst i -> i_supported vs i cb e (updated ops) ->
  Forall (valid_op vs) ops -> i_no_trap dbg i (updated ops) -> counted i = true ->
  let d := final vs ops in
  let n := dict_nodes e d in
  exists m0, i_new dbg vs i cb (2 ^ e) = Ret m0 /\
    i_yields i cb e (updated ops) (i_run dbg vs i m0 ops) (fun '(_, m) =>
      exists b, i_capa_size dbg vs i m = 2 ^ b /\
        forall cap bcap,
          2 ^ b * (slot_bits i e b + aux_bits i + ptr_bits i) +
            8 * (aux_map_bytes i n + grown_bytes i cap bcap n + dict_bytes vs i d + 256) < 8 * 2 ^ 64 ->
          2 ^ b * (slot_bits i e b + ptr_bits i) + aux_least i b +
            8 * (grown_bytes i cap bcap 0 + N.of_nat vs * N.of_nat (size d) + 256) <= 8 * i_alloc_bytes dbg vs cap bcap i m).
Proof.
  intros dbg vs i cb e ops Hvi Hs Hv Ht Hcnt d n.
  destruct (i_bytes_ok dbg vs i cb e ops Hvi Hs Hv Ht) as (m0 & E & Y). exists m0. split; [exact E|].
  destruct Y as [([xs m] & Er & b & nodes & Hc & Hb & Hn & (HG & HT) & HL)|Y]; [left|right; exact Y].
  exists (xs, m). split; [exact Er|]. exists b. split; [exact Hc|].
  intros cap bcap Hu. destruct (HL cap bcap) as [H1 H2]. clear HL. unfold i_alloc_bytes.
  pose proof (aux_map_mono i _ _ Hvi Hn) as H3. pose proof (grown_mono i cap bcap _ _ Hn) as H4.
  fold d in H1, H2, H3, H4. fold n in H3, H4. change (2 ^ 67) with (8 * 2 ^ 64) in H2.
  set (t := i_trie_bytes dbg i (m_trie _ _ m)) in *. set (l := i_label_bytes vs cap bcap i (m_nlm _ _ m)) in *. clearbody t l.
  rewrite !N.mul_add_distr_l in *. specialize (H2 Hcnt ltac:(clear -Hu H3 H4; lia)).
  rewrite (add64_eq t l), add64_eq by (clear -Hu H1 H3 H4 HT; lia). clear -H2 HG. lia.
Qed.

(** ** The hypotheses are met: [demo_valid] of InstProps.v *)
Definition demo2 : inst := mkInst (T_plain_fkhash vigna_hasher 50) (Some cs16).
(** What is reported, and the bounds. *)
Example demo_bytes :
  (let* m := i_new true 4 demo_inst 0 2 in let* r := i_run true 4 demo_inst m demo in
   Ret (i_alloc_bytes true 4 0 0 demo_inst (snd r), i_trie_bytes true demo_inst (m_trie _ _ (snd r)),
        i_capa_size true 4 demo_inst (snd r))) = Ret (643858, 119296, 2 ^ 16) /\
  (let d := final 4 demo in let n := dict_nodes 1 d in
   (2 ^ 16 * (slot_bits demo_inst 1 16 + aux_bits demo_inst + ptr_bits demo_inst) +
      8 * (aux_map_bytes demo_inst n + grown_bytes demo_inst 0 0 n + dict_bytes 4 demo_inst d + 256),
    2 ^ 16 * (slot_bits demo_inst 1 16 + ptr_bits demo_inst) + aux_least demo_inst 16 + 8 * (grown_bytes demo_inst 0 0 0 + 4 * N.of_nat (size d) + 256))) =
   (8 * 681238, 8 * 643852) /\
  counted demo_inst = true.
Proof. split; [run|split; [vm_compute; reflexivity|reflexivity]]. Qed.
Example demo_plain :
  (let* m := i_new false 4 demo2 0 2 in let* r := i_run false 4 demo2 m demo in
   Ret (i_trie_bytes false demo2 (m_trie _ _ (snd r)), i_capa_size false 4 demo2 (snd r), i_par demo2)) =
  Ret (2 ^ 16 * (16 + 8 + 1 + 16) / 8, 2 ^ 16, None).
Proof. run. Qed.

Definition alloc_props := (@C48_alloc_bytes, @C48_trie_bytes, @C48_at_least).
Print Assumptions alloc_props.
