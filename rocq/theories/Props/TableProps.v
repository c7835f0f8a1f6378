(** Properties of the auxiliary hash tables: C26-C29 (specification: TableSpec.v). *)
From Verif.Props Require Import TableSpec HashSpec.
From Verif.Proofs Require Import TableHistP.
Local Open Scope N_scope.

(** ** C26 standard_hash_table is a map *)
(** [new_standard mf t]: a table obtained from one of the two constructors of standard_hash_table<mf>. *)
Definition new_standard (mf : N) (t : std_table) : Prop :=
  t = st_default \/ exists capa_bits, capa_bits <= 57 /\ st_new mf capa_bits = Ret t.
(** The Hasher of a standard_hash_table is any function of the keys.
    Keys are 64-bit words other than UINT64_MAX, values arbitrary; the limit (about mf% of 2^57 keys, far beyond
    any address space) only keeps the capacity representable. *)
Definition standard_history (mf : N) (ops : list top) : Prop :=
  thistory (fun k => k <> 2 ^ 64 - 1) (fun _ => True) (2 ^ 57 * mf / 100 - 16) ∅ ops.
Theorem C26_history : forall (HF : plain_hasher) mf t ops, 1 <= mf <= 99 -> new_standard mf t -> standard_history mf ops ->
  exists t', trun (st_set mf) st_get st_size t ops = Ret (tspec ∅ ops, t').
Proof.
  intros HF mf t ops Hmf Ht Hh.
  assert (Hi : st_ok mf t ∅).
  { destruct Ht as [->|(cb & Hcb & E)]; [left; split; reflexivity|].
    destruct (st_new_ok mf cb Hcb Hmf) as (t' & E' & Hi & _). rewrite E in E'. injection E' as <-. right. eexists. exact Hi. }
  destruct (st_run mf t ∅ ops Hmf Hi) as (t' & E & _).
  - refine (thistory_weaken _ _ _ _ _ _ _ _ _ _ _ Hh); [intros k Hk; exact Hk|tauto|].
    apply max_size_near; [lia|exact Hmf].
  - exists t'. exact E.
Qed.
Theorem C26_constructible : forall mf capa_bits, 1 <= mf <= 99 -> capa_bits <= 57 ->
  exists t, st_new mf capa_bits = Ret t.
Proof. intros mf cb Hmf Hcb. destruct (st_new_ok (HF := vigna_hasher) mf cb Hcb Hmf) as (t & E & _). exists t. exact E. Qed.
(** Non-vacuity: a history with an overwritten key and a missing key. *)
Example C26_case : standard_history 80 [TSet 7 1; TSet 9 2; TSet 7 3; TGet 7; TGet 8; TSize].
Proof. cbv [standard_history]. repeat split; try discriminate; vm_compute; reflexivity. Qed.
Example C26_case_run : tspec ∅ [TSet 7 1; TSet 9 2; TSet 7 3; TGet 7; TGet 8; TSize] =
  [OSet true; OSet true; OSet false; OGet 3; OGet (2 ^ 64 - 1); OSize 2].
Proof. vm_compute. reflexivity. Qed.

(** ** C27 compact_hash_table is a map *)
(** Its Hasher is any hasher that is bijective (HashSpec.v); the default one is. *)
Lemma C27_hasher_default : bijective split_mix_hasher.
Proof. exact split_mix_ok. Qed.
(** A table compact_hash_table<vb, mf> over the universe [0, 2^u): the three template/constructor arguments
    for which a slot (quotient, value, two flags) is narrower than 64 bits. *)
Definition compact_params (vb mf u capa_bits : N) : Prop :=
  1 <= vb /\ 1 <= mf <= 99 /\ 12 <= u <= 57 /\ u - 12 + vb + 2 < 64 /\ N.max 12 capa_bits <= u.
Definition compact_history (vb mf u : N) (limit : N) (ops : list top) : Prop :=
  thistory (fun k => k < 2 ^ u) (fun v => v < 2 ^ vb - 1) limit ∅ ops.
Lemma compact_reach {HB : bij_hasher} {HO : bij_ok HB} vb mf u cb ops : compact_params vb mf u cb -> compact_history vb mf u (max_size_of (2 ^ u) mf) ops ->
  exists t0 t, ch_new vb mf u cb = Ret t0 /\ trun (ch_set vb mf) (ch_get vb) ch_size t0 ops = Ret (tspec ∅ ops, t) /\
    ch_inv vb mf u t (contents ∅ ops).
Proof.
  intros (Hvb & Hmf & Hu & Hw & Hcb) Hh. destruct (ch_new_ok vb mf Hvb Hmf u (conj Hu Hw) cb Hcb) as (t0 & E0 & Hi0).
  destruct (ch_run vb mf u t0 ∅ ops Hvb Hmf (conj Hu Hw)) as (t & E & Hi).
  - eexists. exact Hi0.
  - refine (thistory_weaken _ _ _ _ _ _ _ _ _ _ _ Hh); [intros k Hk; exact Hk| |lia].
    intros v Hv. rewrite N.ones_equiv. lia.
  - exists t0, t. split; [exact E0|]. split; [exact E|exact Hi].
Qed.
(** Universes up to 2^49: every [set] while fewer than mf% of the universe is stored. *)
Theorem C27_history : forall (HB : bij_hasher) vb mf u capa_bits ops, bijective HB -> compact_params vb mf u capa_bits -> u <= 49 ->
  compact_history vb mf u (2 ^ u * mf / 100) ops ->
  exists t0 t, ch_new vb mf u capa_bits = Ret t0 /\
    trun (ch_set vb mf) (ch_get vb) ch_size t0 ops = Ret (tspec ∅ ops, t).
Proof.
  intros HB vb mf u cb ops HO Hp Hu Hh. change (bij_ok HB) in HO. destruct (compact_reach (HO := HO) vb mf u cb ops Hp) as (t0 & t & E0 & E & _).
  - destruct Hp as (_ & Hmf & _). rewrite max_size_exact by assumption. exact Hh.
  - exists t0, t. split; assumption.
Qed.
(** Larger universes: the load limit is computed in binary64 and may be off by at most 16 keys. *)
Theorem C27_history_wide : forall (HB : bij_hasher) vb mf u capa_bits ops, bijective HB -> compact_params vb mf u capa_bits ->
  compact_history vb mf u (2 ^ u * mf / 100 - 16) ops ->
  exists t0 t, ch_new vb mf u capa_bits = Ret t0 /\
    trun (ch_set vb mf) (ch_get vb) ch_size t0 ops = Ret (tspec ∅ ops, t).
Proof.
  intros HB vb mf u cb ops HO Hp Hh. change (bij_ok HB) in HO. destruct (compact_reach (HO := HO) vb mf u cb ops Hp) as (t0 & t & E0 & E & _).
  - destruct Hp as (_ & Hmf & Hu & _).
    refine (thistory_weaken _ _ _ _ _ _ _ _ _ _ _ Hh); [intros k Hk; exact Hk|tauto|].
    apply max_size_near; [lia|exact Hmf].
  - exists t0, t. split; assumption.
Qed.
Example C27_case : compact_params 7 80 20 0 /\
  compact_history 7 80 20 (2 ^ 20 * 80 / 100) [TSet 7 1; TSet 1048575 126; TSet 7 3; TGet 7; TGet 8; TSize].
Proof. cbv [compact_params compact_history]. repeat split; try discriminate; vm_compute; reflexivity. Qed.

(** ** C28 clone copies a table, and never terminates on an empty one *)
(** [reached vb mf u capa_bits ops t]: constructing the table and performing [ops] gives [t]. *)
Definition reached {HB : bij_hasher} (vb mf u capa_bits : N) (ops : list top) (t : @cht HB) : Prop :=
  exists t0 obs, ch_new vb mf u capa_bits = Ret t0 /\
    trun (ch_set vb mf) (ch_get vb) ch_size t0 ops = Ret (obs, t).
Lemma reached_inv {HB : bij_hasher} {HO : bij_ok HB} vb mf u cb ops t : compact_params vb mf u cb ->
  compact_history vb mf u (max_size_of (2 ^ u) mf) ops -> reached vb mf u cb ops t -> ch_inv vb mf u t (contents ∅ ops).
Proof.
  intros Hp Hh (t0 & obs & E0 & E). destruct (compact_reach (HO := HO) vb mf u cb ops Hp Hh) as (t0' & t' & E0' & E' & Hi).
  rewrite E0 in E0'. injection E0' as <-. rewrite E in E'. injection E' as _ <-. exact Hi.
Qed.
(** The target may have a larger universe; every later history on it is answered as on the source. *)
Theorem C28_copies : forall (HB : bij_hasher) vb mf u cb ops t u' cb' n, bijective HB -> compact_params vb mf u cb -> u <= u' -> u' <= 49 ->
  compact_params vb mf u' cb' -> compact_history vb mf u (2 ^ u * mf / 100) ops ->
  reached vb mf u cb ops t -> ch_new vb mf u' cb' = Ret n ->
  contents ∅ ops <> ∅ -> N.of_nat (size (contents ∅ ops)) <= ch_max n ->
  N.of_nat (size (contents ∅ ops)) < 2 ^ u' * mf / 100 ->
  exists n', ch_clone vb (ch_set vb mf) t n = Ret n' /\
    forall later, thistory (fun k => k < 2 ^ u') (fun v => v < 2 ^ vb - 1) (2 ^ u' * mf / 100) (contents ∅ ops) later ->
      exists n'', trun (ch_set vb mf) (ch_get vb) ch_size n' later = Ret (tspec (contents ∅ ops) later, n'').
Proof.
  intros HB vb mf u cb ops t u' cb' n HO Hp Hle Hu' Hp' Hh Hr En Hne Hmax Hlt. change (bij_ok HB) in HO.
  pose proof Hp as (Hvb & Hmf & Hu & Hw & Hcb). pose proof Hp' as (_ & _ & Hu2 & Hw2 & Hcb2).
  rewrite <- max_size_exact in Hh, Hlt |- * by (try assumption; lia).
  pose proof (reached_inv (HO := HO) vb mf u cb ops t Hp Hh Hr) as Hi.
  destruct (ch_new_ok vb mf Hvb Hmf u' (conj Hu2 Hw2) cb' Hcb2) as (n0 & En0 & Hn0).
  rewrite En in En0. injection En0 as <-.
  destruct (clone_spec vb mf Hvb Hmf u u' t (contents ∅ ops) n (conj Hu Hw) (conj Hu2 Hw2) Hle Hi Hne) as (n' & E & Hi').
  - eexists. exact Hn0.
  - exact Hmax.
  - exact Hlt.
  - exists n'. split; [exact E|]. intros later Hl.
    destruct (ch_run vb mf u' n' _ later Hvb Hmf (conj Hu2 Hw2) Hi') as (n'' & E2 & _).
    + refine (thistory_weaken _ _ _ _ _ _ _ _ _ _ _ Hl); [intros k Hk; exact Hk| |lia].
      intros v Hv. rewrite N.ones_equiv. lia.
    + exists n''. exact E2.
Qed.
(** On a source that was never written, clone never returns, whatever the target. *)
Theorem C28_empty_diverges : forall (HB : bij_hasher) vb mf u cb ops t n, bijective HB -> compact_params vb mf u cb ->
  compact_history vb mf u (2 ^ u * mf / 100 - 16) ops -> contents ∅ ops = ∅ -> reached vb mf u cb ops t ->
  ch_size n = 0 -> ch_clone vb (ch_set vb mf) t n = Diverge.
Proof.
  intros HB vb mf u cb ops t n HO Hp Hh He Hr Hn. change (bij_ok HB) in HO. pose proof Hp as (Hvb & Hmf & Hu & Hw & Hcb).
  apply (clone_empty vb mf Hvb Hmf u (conj Hu Hw)); [|exact Hn]. rewrite <- He.
  apply (reached_inv (HO := HO) vb mf u cb ops t Hp); [|exact Hr].
  refine (thistory_weaken _ _ _ _ _ _ _ _ _ _ _ Hh); [intros k Hk; exact Hk|tauto|].
  apply max_size_near; [lia|exact Hmf].
Qed.
Example C28_case : exists (t n : @cht split_mix_hasher), reached 7 80 20 0 [TSet 7 1; TSet 9 2] t /\ ch_new 7 80 21 13 = Ret n /\
  contents ∅ [TSet 7 1; TSet 9 2] <> ∅ /\ N.of_nat (size (contents ∅ [TSet 7 1; TSet 9 2])) <= ch_max n.
Proof.
  assert (Hp : compact_params 7 80 20 0) by (cbv [compact_params]; repeat split; try discriminate; vm_compute; reflexivity).
  destruct (C27_history _ 7 80 20 0 [TSet 7 1; TSet 9 2] split_mix_ok Hp ltac:(discriminate)) as (t0 & t & E0 & E).
  { cbv [compact_history]. repeat split; try discriminate; vm_compute; reflexivity. }
  destruct (@ch_new_ok split_mix_hasher _ 7 80 ltac:(discriminate) ltac:(split; discriminate) 21 ltac:(split; [split; discriminate|reflexivity]) 13 ltac:(discriminate)) as (n & En & Hn).
  exists t, n. split; [exists t0; eexists; split; [exact E0|exact E]|]. split; [exact En|]. split.
  - intros H. apply (f_equal (fun m => m !! 7)) in H. vm_compute in H. discriminate.
  - assert (Hf : ChtSetP.fits 7 21) by (split; [split; discriminate|reflexivity]).
    rewrite (cs_max _ _ _ _ _ (inv_shape _ _ _ Hf _ _ _ Hn)). vm_compute. discriminate.
Qed.

(** ** C29 A compact_hash_table cannot hold more than mf% of its universe *)
(** At that fill level every [set], even of a stored key, runs into the failing assertion
    capa_bits <= univ_bits (modelled as [AssertFail]). *)
Theorem C29_overfull : forall (HB : bij_hasher) vb mf u cb ops t k v, bijective HB -> compact_params vb mf u cb -> u <= 49 ->
  compact_history vb mf u (2 ^ u * mf / 100) ops -> reached vb mf u cb ops t ->
  N.of_nat (size (contents ∅ ops)) = 2 ^ u * mf / 100 -> k < 2 ^ u -> v < 2 ^ vb - 1 ->
  ch_set vb mf t k v = AssertFail.
Proof.
  intros HB vb mf u cb ops t k v HO Hp Hu49 Hh Hr Hs Hk Hv. change (bij_ok HB) in HO. pose proof Hp as (Hvb & Hmf & Hu & Hw & Hcb).
  rewrite <- max_size_exact in Hh, Hs by assumption. unfold ch_set. change 64%nat with (S 63).
  apply (set_full vb mf Hvb Hmf u (conj Hu Hw) 63 t (contents ∅ ops)).
  - apply (reached_inv (HO := HO) vb mf u cb ops t Hp Hh Hr).
  - exact Hk.
  - rewrite N.ones_equiv. lia.
  - lia.
Qed.
(** The level is reachable in every universe: store the keys 0, 1, 2, ... *)
Definition fill (n : nat) : list top := map (fun i => TSet (N.of_nat i) 0) (seq 0 n).
Lemma contents_fill n : forall k, contents ∅ (fill n) !! k = if k <? N.of_nat n then Some 0 else None.
Proof.
  unfold fill, contents. induction n as [|n IH]; intros k; [cbn [seq map foldl]; rewrite lookup_empty; destruct k; reflexivity|].
  rewrite seq_S, map_app, foldl_app. cbn [map foldl tstep Nat.add].
  destruct (N.eq_dec k (N.of_nat n)) as [->|Hk].
  - rewrite lookup_insert. assert (E : (N.of_nat n <? N.of_nat (S n)) = true) by (apply N.ltb_lt; lia). rewrite E. reflexivity.
  - rewrite lookup_insert_ne by congruence. rewrite IH.
    destruct (k <? N.of_nat n) eqn:E1, (k <? N.of_nat (S n)) eqn:E2; try reflexivity; lia.
Qed.
Lemma size_fill n : size (contents ∅ (fill n)) = n.
Proof.
  induction n as [|n IH]; [reflexivity|]. unfold fill, contents in *. rewrite seq_S, map_app, foldl_app.
  cbn [map foldl tstep Nat.add]. rewrite map_size_insert_None; [lia|].
  pose proof (contents_fill n (N.of_nat n)) as E. rewrite N.ltb_irrefl in E. exact E.
Qed.
Lemma thistory_app key val limit a : forall m b,
  thistory key val limit m (a ++ b) <-> thistory key val limit m a /\ thistory key val limit (contents m a) b.
Proof. induction a as [|o a IH]; intros m b; cbn [thistory app]; [tauto|]. rewrite IH. tauto. Qed.
Lemma fill_history (key val : N -> Prop) limit n : (forall i, i < N.of_nat n -> key i) -> val 0 -> N.of_nat n <= limit ->
  thistory key val limit ∅ (fill n).
Proof.
  intros Hk Hv. induction n as [|n IH]; intros Hl; [exact I|]. unfold fill. rewrite seq_S, map_app.
  apply thistory_app. split; [apply IH; [intros; apply Hk; lia|lia]|].
  cbn [map thistory tallowed Nat.add]. repeat split; [apply Hk; lia|exact Hv|].
  pose proof (size_fill n) as E. unfold fill in E. rewrite E. lia.
Qed.
Theorem C29_reachable : forall (HB : bij_hasher) vb mf u cb, bijective HB -> compact_params vb mf u cb -> u <= 49 ->
  let ops := fill (N.to_nat (2 ^ u * mf / 100)) in
  compact_history vb mf u (2 ^ u * mf / 100) ops /\ N.of_nat (size (contents ∅ ops)) = 2 ^ u * mf / 100 /\
  exists t, reached vb mf u cb ops t.
Proof.
  intros HB vb mf u cb HO Hp Hu49 ops. change (bij_ok HB) in HO. pose proof Hp as (Hvb & Hmf & Hu & Hw & Hcb).
  assert (Hh : compact_history vb mf u (2 ^ u * mf / 100) ops).
  { apply fill_history; [|pose proof (pow2_le 1 vb Hvb); lia|lia]. intros i Hi. rewrite N2Nat.id in Hi.
    eapply N.lt_le_trans; [exact Hi|]. apply N.div_le_upper_bound; [lia|]. rewrite N.mul_comm. apply N.mul_le_mono_r. lia. }
  split; [exact Hh|]. split; [unfold ops; rewrite size_fill, N2Nat.id; reflexivity|].
  destruct (C27_history HB vb mf u cb ops HO Hp Hu49 Hh) as (t0 & t & E0 & E). exists t, t0, (tspec ∅ ops). split; assumption.
Qed.
Example C29_case : compact_params 7 80 12 0.
Proof. cbv [compact_params]. repeat split; try discriminate; vm_compute; reflexivity. Qed.

Print Assumptions C26_history.
Print Assumptions C27_history.
Print Assumptions C27_history_wide.
Print Assumptions C28_copies.
Print Assumptions C28_empty_diverges.
Print Assumptions C29_overfull.
Print Assumptions C29_reachable.
