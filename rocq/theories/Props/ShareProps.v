(** C53: the keys share their prefixes: the labels hold every edge of the keys' trie exactly once, so the memory
    reported does not depend on the order or the values of the updates. *)
From Verif.Props Require Export ShareSpec InstProps.
From Verif.Proofs Require Import AllocP ShareP.
From Verif.Proofs Require Import FastP.
Local Open Scope N_scope.

(** alloc_bytes() of a plain label store: the label pointers, and then the distinct prefixes of the keys present and
    a value for each key, to the byte. *)
Theorem C53_labels : forall dbg vs i cb e ops, valid_inst i -> i_supported vs i cb e (updated ops) ->
  Forall (valid_op vs) ops -> i_no_trap dbg i (updated ops) -> i_l i = None ->
  let d := final vs ops in
  exists m0, i_new dbg vs i cb (2 ^ e) = Ret m0 /\
    i_yields i cb e (updated ops) (i_run dbg vs i m0 ops) (fun '(_, m) =>
      exists b, i_capa_size dbg vs i m = 2 ^ b /\
        forall cap bcap, let u := 2 ^ b * ptr_bits i + 8 * (grown_bytes i cap bcap 0 + label_total d + N.of_nat vs * N.of_nat (size d)) in
          u < 8 * 2 ^ 64 -> 8 * i_label_bytes vs cap bcap i (m_nlm _ _ m) = u).
Proof.
  intros dbg vs i cb e ops Hvi Hs Hv Ht Hl d.
  destruct (i_shared_ok dbg vs i cb e ops Hvi Hs Hv Ht) as (m0 & E & Y). exists m0. split; [exact E|].
  destruct Y as [([xs m] & Er & b & nodes & Hc & Hb & Hn & _ & HL)|Y]; [left|right; exact Y].
  exists (xs, m). split; [exact Er|]. exists b. split; [exact Hc|].
  intros cap bcap u Hu. destruct (HL cap bcap) as [_ HL']. specialize (HL' Hl). fold d in HL'.
  assert (Eq : 2 ^ b * ptr_bits i + 8 * (grown_bytes i cap bcap nodes + shared_bytes vs i d) = u).
  { unfold u, shared_bytes, grown_bytes. rewrite Hl. destruct (i_t i); lia. }
  rewrite Eq in HL'. apply HL'. change (2 ^ 67) with (8 * 2 ^ 64). exact Hu.
Qed.

(** alloc_bytes() of the maps with a plain trie and a plain label store is known exactly. *)
Theorem C53_exact : forall dbg vs i cb e ops, valid_inst i -> i_supported vs i cb e (updated ops) ->
  Forall (valid_op vs) ops -> i_no_trap dbg i (updated ops) -> i_l i = None -> i_par i = None ->
  let d := final vs ops in
  exists m0 xs m b, i_new dbg vs i cb (2 ^ e) = Ret m0 /\ i_run dbg vs i m0 ops = Ret (xs, m) /\
    i_capa_size dbg vs i m = 2 ^ b /\
    forall cap bcap,
      let u := 2 ^ b * (slot_bits i e b + ptr_bits i) +
               8 * (grown_bytes i cap bcap 0 + label_total d + N.of_nat vs * N.of_nat (size d) + 256) in
      u < 8 * 2 ^ 64 -> 8 * i_alloc_bytes dbg vs cap bcap i m = u.
Proof.
  intros dbg vs i cb e ops Hvi Hs Hv Ht Hl Hp d.
  destruct (i_shared_ok dbg vs i cb e ops Hvi Hs Hv Ht) as (m0 & E & Y).
  destruct Y as [([xs m] & Er & b & nodes & Hc & Hb & Hn & (HG & HT) & HL)|[Y _]].
  2:{ exfalso. unfold i_near_full in Y. rewrite Hp in Y. exact Y. }
  exists m0, xs, m, b. split; [exact E|]. split; [exact Er|]. split; [exact Hc|].
  assert (Ha : aux_bits i = 0 /\ aux_map_bytes i nodes = 0) by (unfold aux_bits, aux_map_bytes; rewrite Hp; auto).
  assert (Ha3 : aux_least i b = 0) by (unfold aux_least; rewrite Hp; reflexivity). rewrite Ha3 in HG.
  destruct Ha as [Ha1 Ha2]. rewrite Ha1, Ha2, N.add_0_r in HT.
  intros cap bcap u Hu. destruct (HL cap bcap) as [_ HL']. specialize (HL' Hl). fold d in HL'. unfold i_alloc_bytes.
  assert (Eq : 2 ^ b * ptr_bits i + 8 * (grown_bytes i cap bcap nodes + shared_bytes vs i d) =
               2 ^ b * ptr_bits i + 8 * (grown_bytes i cap bcap 0 + label_total d + N.of_nat vs * N.of_nat (size d))).
  { unfold shared_bytes, grown_bytes. rewrite Hl. destruct (i_t i); lia. }
  rewrite Eq in HL'. change (2 ^ 67) with (8 * 2 ^ 64) in HL'. unfold u in *. clear Eq u.
  set (t := i_trie_bytes dbg i (m_trie _ _ m)) in *. set (l := i_label_bytes vs cap bcap i (m_nlm _ _ m)) in *. clearbody t l.
  rewrite !N.mul_add_distr_l in *. specialize (HL' ltac:(clear -Hu; lia)).
  rewrite (add64_eq t l), add64_eq by (clear -Hu HL' HT HG; lia). clear -HL' HG HT. lia.
Qed.

(** Two histories that leave the same keys, in whatever order, with whatever values and repetitions: if the maps
    have the same capacity they report the same memory (the growing vectors given the same capacity). *)
Theorem C53_order : forall dbg dbg' vs i cb cb' e ops ops' m m', valid_inst i -> i_l i = None -> i_par i = None ->
  i_supported vs i cb e (updated ops) -> Forall (valid_op vs) ops -> i_no_trap dbg i (updated ops) ->
  i_supported vs i cb' e (updated ops') -> Forall (valid_op vs) ops' -> i_no_trap dbg' i (updated ops') ->
  i_reaches dbg vs i cb e ops m -> i_reaches dbg' vs i cb' e ops' m' ->
  dom (final vs ops) = dom (final vs ops') -> i_capa_size dbg vs i m = i_capa_size dbg' vs i m' ->
  forall cap bcap,
    i_capa_size dbg vs i m * (slot_bits i e (N.log2 (i_capa_size dbg vs i m)) + ptr_bits i) +
      8 * (grown_bytes i cap bcap 0 + label_total (final vs ops) + N.of_nat vs * N.of_nat (size (final vs ops)) + 256) < 8 * 2 ^ 64 ->
    i_alloc_bytes dbg vs cap bcap i m = i_alloc_bytes dbg' vs cap bcap i m'.
Proof.
  intros dbg dbg' vs i cb cb' e ops ops' m m' Hvi Hl Hp Hs Hv Ht Hs' Hv' Ht' (m0 & xs & E & Er) (m0' & xs' & E' & Er') Hd Hc cap bcap Hu.
  destruct (C53_exact dbg vs i cb e ops Hvi Hs Hv Ht Hl Hp) as (n0 & ys & n & b & F & Fr & Hb & HA).
  destruct (C53_exact dbg' vs i cb' e ops' Hvi Hs' Hv' Ht' Hl Hp) as (n0' & ys' & n' & b' & F' & Fr' & Hb' & HA').
  rewrite E in F. injection F as <-. rewrite Er in Fr. injection Fr as <- <-.
  rewrite E' in F'. injection F' as <-. rewrite Er' in Fr'. injection Fr' as <- <-.
  assert (Hbb : b = b'). { apply (N.pow_inj_r 2); [lia|]. rewrite <- Hb, <- Hb'. exact Hc. } subst b'.
  assert (Hsz : size (final vs ops) = size (final vs ops')) by (rewrite <- !size_dom, Hd; reflexivity).
  assert (Hlt : label_total (final vs ops') = label_total (final vs ops)) by (unfold label_total; rewrite Hd, Hsz; reflexivity).
  rewrite Hb, (N.log2_pow2 b) in Hu by lia.
  specialize (HA cap bcap Hu). specialize (HA' cap bcap). rewrite Hlt, <- Hsz in HA'. specialize (HA' Hu).
  cbv zeta in HA, HA'. clear -HA HA'. lia.
Qed.

(** The bound of C48 for every instantiation, with the edges of the trie for the sum of all keys; a compact store
    adds a header for each key, no longer than that of the longest key. *)
Theorem C53_alloc_bytes : forall dbg vs i cb e ops, valid_inst i -> i_supported vs i cb e (updated ops) ->
  Forall (valid_op vs) ops -> i_no_trap dbg i (updated ops) ->
  let d := final vs ops in
  let n := dict_nodes e d in
  exists m0, i_new dbg vs i cb (2 ^ e) = Ret m0 /\
    i_yields i cb e (updated ops) (i_run dbg vs i m0 ops) (fun '(_, m) =>
      exists b, i_capa_size dbg vs i m = 2 ^ b /\ (b = N.max 16 cb \/ 2 ^ b * i_mf i <= 200 * (n + 8)) /\
        forall cap bcap, 8 * i_alloc_bytes dbg vs cap bcap i m <=
          2 ^ b * (slot_bits i e b + aux_bits i + ptr_bits i) +
          8 * (aux_map_bytes i n + grown_bytes i cap bcap n + shared_bytes vs i d + 256)).
Proof.
  intros dbg vs i cb e ops Hvi Hs Hv Ht d n.
  destruct (i_shared_ok dbg vs i cb e ops Hvi Hs Hv Ht) as (m0 & E & Y). exists m0. split; [exact E|].
  destruct Y as [([xs m] & Er & b & nodes & Hc & Hb & Hn & (_ & HT) & HL)|Y]; [left|right; exact Y].
  exists (xs, m). split; [exact Er|]. exists b. split; [exact Hc|]. split.
  - destruct Hb as [Hb|Hb]; [left; exact Hb|right]. unfold n, d. clear -Hb Hn. lia.
  - intros cap bcap. destruct (HL cap bcap) as [HL' _]. clear HL. rename HL' into HL. unfold i_alloc_bytes.
    pose proof (add64_le (i_trie_bytes dbg i (m_trie _ _ m)) (i_label_bytes vs cap bcap i (m_nlm _ _ m))) as H1.
    pose proof (add64_le (add64 (i_trie_bytes dbg i (m_trie _ _ m)) (i_label_bytes vs cap bcap i (m_nlm _ _ m))) 256) as H2.
    pose proof (aux_map_mono i _ _ Hvi Hn) as H3. pose proof (grown_mono i cap bcap _ _ Hn) as H4.
    fold d in H3, H4, HL. fold n in H3, H4. clear -HT HL H1 H2 H3 H4. nia.
Qed.

(** ** The hypotheses are met *)
(** A plain map, and two histories: the keys in another order, with other values, and updated again. *)
Definition share_inst : inst := mkInst (T_plain_fkhash vigna_hasher 50) None.
Definition share2_inst : inst := mkInst (T_plain_bonsai vigna_hasher 90) None.
Definition demo_other : list op :=
  [Update (key_of [116; 101; 97]) (Some [9; 9; 9; 9]); Update (key_of [116; 101; 99; 104]) None; Update (key_of [116; 101; 97]) None;
   Update (key_of []) (Some [2; 0; 0; 0])].
Example share_valid : valid_inst share_inst /\ valid_inst share2_inst /\
  i_supported 4 share_inst 0 1 (updated demo) /\ i_supported 4 share_inst 0 1 (updated demo_other) /\
  i_supported 4 share2_inst 0 1 (updated demo) /\ i_supported 4 share2_inst 0 1 (updated demo_other) /\
  Forall (valid_op 4) demo /\ Forall (valid_op 4) demo_other /\
  i_no_trap false share_inst (updated demo) /\ i_no_trap false share_inst (updated demo_other) /\
  i_no_trap true share2_inst (updated demo) /\ i_no_trap true share2_inst (updated demo_other) /\
  dom (final 4 demo) = dom (final 4 demo_other).
Proof.
  assert (Hk : forall s, Forall (fun c => 0 < c < 256) s -> valid_key (key_of s)) by (intros s Hs; exists s; auto).
  assert (Hs : forall i ops, (i = share_inst \/ i = share2_inst) -> ops = demo \/ ops = demo_other -> i_supported 4 i 0 1 (updated ops)).
  { intros i ops Hi Ho. split; [lia|]. split; [destruct Hi; subst i; vm_compute; discriminate|].
    split; [destruct Hi, Ho; subst; vm_compute; reflexivity|].
    assert (H : (size (alphabet (updated ops)) <=? 254)%nat = true) by (destruct Ho; subst; vm_compute; reflexivity).
    apply Nat.leb_le, H. }
  split; [split; [cbn; lia|split; exact I]|]. split; [split; [cbn; lia|split; exact I]|].
  split; [apply Hs; auto|]. split; [apply Hs; auto|]. split; [apply Hs; auto|]. split; [apply Hs; auto|].
  split. { repeat constructor; try (apply Hk; repeat constructor); try reflexivity. }
  split. { repeat constructor; try (apply Hk; repeat constructor); try reflexivity. }
  split; [intros H; discriminate H|]. split; [intros H; discriminate H|].
  split; [intros H; discriminate H|]. split; [intros H; discriminate H|].
  apply (bool_decide_unpack _). vm_compute. exact I.
Qed.
(** The keys "tech", "", "tea" with terminators have the prefixes t, te, tec, tech, tech\0, \0, tea, tea\0; two of the
    eight edges are branches.  The two histories report the same number, that of the theorem. *)
Example share_bytes_demo :
  (let* m := i_new false 4 share_inst 0 2 in let* r := i_run false 4 share_inst m demo in
   Ret (i_alloc_bytes false 4 16 0 share_inst (snd r), i_capa_size false 4 share_inst (snd r))) =
   Ret ((2 ^ 16 * (16 + 8 + 1 + 16) / 8 + 8 * 16 + 6 + 4 * 3 + 256), 2 ^ 16) /\
  (let* m := i_new false 4 share_inst 0 2 in let* r := i_run false 4 share_inst m demo_other in
   Ret (i_alloc_bytes false 4 16 0 share_inst (snd r), i_capa_size false 4 share_inst (snd r))) =
   Ret ((2 ^ 16 * (16 + 8 + 1 + 16) / 8 + 8 * 16 + 6 + 4 * 3 + 256), 2 ^ 16) /\
  label_total (final 4 demo) = 6 /\ size (final 4 demo) = 3%nat /\
  slot_bits share_inst 1 16 = 16 + 8 + 1 + 16 /\ ptr_bits share_inst = 0 /\ grown_bytes share_inst 16 0 0 = 8 * 16.
Proof. split; [run|]. split; [run|]. split; [vm_compute; reflexivity|]. split; [vm_compute; reflexivity|]. repeat split. Qed.
Example share_bytes_bonsai :
  (let* m := i_new true 4 share2_inst 0 2 in let* r := i_run true 4 share2_inst m demo_other in
   Ret (i_alloc_bytes true 4 0 0 share2_inst (snd r), i_capa_size true 4 share2_inst (snd r))) =
   Ret ((2 ^ 16 * (16 + 8 + 1 + 64) / 8 + 6 + 4 * 3 + 256), 2 ^ 16) /\
  slot_bits share2_inst 1 16 = 16 + 8 + 1 /\ ptr_bits share2_inst = 64 /\ grown_bytes share2_inst 0 0 0 = 0.
Proof. split; [run|]. repeat split. Qed.

Definition share_props := (@C53_labels, @C53_exact, @C53_order, @C53_alloc_bytes).
Print Assumptions share_props.
