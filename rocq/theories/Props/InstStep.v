(** C02, C04, C05 and C06 for every instantiation of map<Trie, NLM> (part of C46). *)
From Verif.Proofs Require Import InstP InstMoreP InstStepP SpecP FastP.
From Verif.Props Require Export InstMoreSpec.
Local Open Scope N_scope.

(** C02: after any history, update(k) returns a pointer to the value last written to k, zero for a new key. *)
Theorem C46_update_value : forall dbg vs i cb e ops m k, valid_inst i -> i_supported vs i cb e (updated ops ++ [k]) ->
  Forall (valid_op vs) ops -> i_no_trap dbg i (updated ops ++ [k]) -> i_reaches dbg vs i cb e ops m ->
  valid_key k -> N.of_nat (length k) + N.of_nat vs < 2 ^ 64 ->
  i_yields i cb e (updated ops ++ [k]) (i_update dbg vs i m k) (fun '(r, m') => exists p, r = UPtr (Some p) /\
    map_read _ _ m' p = Ret (default (replicate vs 0) (value_after vs k None ops))).
Proof.
  intros dbg vs i cb e ops m k Hvi Hsup Hv Hnt Hr Hk Hsm.
  destruct (i_reach_update dbg vs i cb e ops m k Hvi Hsup Hv Hnt Hr Hk Hsm) as (K & S & D & b & loc & Hi & Hy).
  eapply i_yields_mono; [exact Hy|]. intros [r m'] (p & S' & D' & b' & loc' & -> & _ & Hi' & Hp).
  exists p. split; [reflexivity|].
  destruct (minv_read _ _ _ _ e _ _ _ _ _ (ip_ok _ _ _ _ _ _ K) m' _ _ _ _ _ k p Hi' Hp) as (v & Hv' & E).
  rewrite lookup_insert in Hv'. injection Hv' as <-. unfold map_read. rewrite E. f_equal.
  rewrite final_value. unfold zeros. rewrite ReachP.zeros_replicate. reflexivity.
Qed.

(** C04: update(k), and a write through the pointer it returned, change what find returns for k alone. *)
Theorem C46_other_keys : forall dbg vs i cb e ops m k k' w, valid_inst i -> i_supported vs i cb e (updated ops ++ [k]) ->
  Forall (valid_op vs) ops -> i_no_trap dbg i (updated ops ++ [k]) -> i_reaches dbg vs i cb e ops m ->
  valid_key k -> N.of_nat (length k) + N.of_nat vs < 2 ^ 64 -> length w = vs ->
  valid_key k' -> N.of_nat (length k') < 2 ^ 64 -> k' <> k ->
  i_yields i cb e (updated ops ++ [k]) (i_update dbg vs i m k) (fun '(r, m1) => exists p m2, r = UPtr (Some p) /\
    map_write _ _ m1 p w = Ret m2 /\
    i_find_value dbg vs i m1 k' = i_find_value dbg vs i m k' /\
    i_find_value dbg vs i m2 k' = i_find_value dbg vs i m k' /\
    i_find_value dbg vs i m2 k = Ret (Some w)).
Proof.
  intros dbg vs i cb e ops m k k' w Hvi Hsup Hv Hnt Hr Hk Hsm Hw Hk' Hlen' Hne.
  destruct (i_reach_update dbg vs i cb e ops m k Hvi Hsup Hv Hnt Hr Hk Hsm) as (K & S & D & b & loc & Hi & Hy).
  destruct (i_supported_limit _ _ _ _ _ Hvi Hsup) as (He & _).
  eapply i_yields_mono; [exact Hy|]. intros [r m1] (p & S' & D' & b' & loc' & -> & _ & Hi' & Hp).
  destruct (i_inv_write dbg vs i cb e _ K m1 _ _ _ _ _ k p w Hi' Hp Hw) as (m2 & D2 & Ew & Hi2).
  exists p, m2. split; [reflexivity|]. split; [exact Ew|].
  rewrite (i_inv_find dbg vs i cb e _ K He m _ _ _ _ _ k' Hi Hk' Hlen').
  rewrite (i_inv_find dbg vs i cb e _ K He m1 _ _ _ _ _ k' Hi' Hk' Hlen').
  rewrite (i_inv_find dbg vs i cb e _ K He m2 _ _ _ _ _ k' Hi2 Hk' Hlen').
  rewrite (i_inv_find dbg vs i cb e _ K He m2 _ _ _ _ _ k Hi2 Hk) by (clear -Hsm; lia).
  rewrite insert_insert, lookup_insert, !lookup_insert_ne by congruence. auto.
Qed.

(** C05: an empty range or one that does not end with 0 is rejected, in any state (a [Throw] carries no new state); a
    lambda that is not a power of two is rejected; every power of two within the limit is accepted. *)
Theorem C46_invalid_keys : forall dbg vs i (m : i_map dbg vs i) k,
  (k = [] -> i_find dbg vs i m k = Throw ExEmptyKey /\ i_update dbg vs i m k = Throw ExEmptyKey) /\
  (k <> [] -> List.last k 0 <> 0 ->
     i_find dbg vs i m k = Throw ExNotTerminated /\ i_update dbg vs i m k = Throw ExNotTerminated).
Proof.
  intros dbg vs i m k. split.
  - intros ->. split; reflexivity.
  - intros Hne Hl. unfold i_find, i_update, map_find, map_update, check_key.
    destruct k as [|c k]; [congruence|]. unfold throw_if at 1 3. rewrite !bind_ret.
    rewrite (proj2 (N.eqb_neq _ _) Hl). split; reflexivity.
Qed.
Theorem C46_constructor : forall dbg vs i cb lambda, valid_inst i -> (1 <= vs)%nat -> lambda < 2 ^ 64 ->
  ((forall e, lambda <> 2 ^ e) -> i_new dbg vs i cb lambda = Throw ExLambda) /\
  (forall e, lambda = 2 ^ e -> N.max 16 cb + e <= 55 -> exists m, i_new dbg vs i cb lambda = Ret m).
Proof.
  intros dbg vs i cb lambda Hvi Hvs Hl. split.
  - intros Hn. unfold i_new, map_new. assert (E : is_power2 lambda = false).
    { destruct (is_power2 lambda) eqn:E; [|reflexivity]. apply (is_power2_ok lambda Hl) in E as [k Hk]. destruct (Hn k Hk). }
    rewrite E. reflexivity.
  - intros e -> Hcb. assert (Hs : i_supported vs i cb e (updated [])).
    { split; [exact Hvs|]. split; [exact Hcb|]. split; [|vm_compute; lia].
      change (nodes_for e (updated [])) with 0. apply (N.lt_le_trans _ (2 ^ 15 * 1 / 100)); [reflexivity|].
      apply N.div_le_mono; [discriminate|]. apply N.mul_le_mono; [apply pow2_le; lia|exact (proj1 (proj1 Hvi))]. }
    destruct (i_run_ok dbg vs i cb e [] Hvi Hs) as (m0 & E & _); [constructor|intros _ []|]. eauto.
Qed.
(** The plain tries throw beyond the limit, also where no shift overflows. *)
Theorem C46_constructor_limit : forall dbg vs i cb e, i_par i = None -> cb < 64 -> e < 56 -> 55 < N.max 16 cb + e ->
  i_new dbg vs i cb (2 ^ e) = Throw ExWidth.
Proof.
  intros dbg vs i cb e Hpl Hc He H. unfold i_new, map_new.
  assert (Hp : is_power2 (2 ^ e) = true). { apply is_power2_ok; [apply pow2_lt; lia|]. eauto. }
  assert (Hcl : ceil_log2 (2 ^ e) = Ret e).
  { pose proof (pow2_pos e) as Hpp.
    destruct (ceil_log2_ok (2 ^ e) ltac:(lia) (pow2_lt e 64 ltac:(lia))) as (n & E & H1 & H2).
    rewrite E. f_equal. specialize (H2 e ltac:(lia)). destruct (N.eq_dec n e) as [|Hne]; [assumption|].
    assert (2 ^ n < 2 ^ e); [apply pow2_lt; lia|lia]. }
  rewrite Hp. unfold throw_if; cbn [negb]. rewrite bind_ret, Hcl, bind_ret.
  assert (E1 : p2_new (N.max 16 cb) = Ret (mkP2 (N.max 16 cb) (N.ones (N.max 16 cb)))) by (apply p2_new_eq; lia).
  assert (E2 : p2_new (8 + e) = Ret (mkP2 (8 + e) (N.ones (8 + e)))) by (apply p2_new_eq; lia).
  assert (Hw : (64 <=? N.max 16 cb + (8 + e)) = true) by (apply N.leb_le; lia).
  assert (E : t_new (i_trie dbg i) cb (8 + e) = Throw ExWidth).
  { destruct i as [[H0 mf|H0 P mf|H0 mf|H0 P mf] l]; try discriminate Hpl; cbn [i_trie i_t pb_ops pf_ops t_new];
      unfold pb_new, pf_new; change trie_min_capa_bits with 16; rewrite E1, bind_ret, E2, bind_ret; cbn [p2_bits];
      unfold cv_new; rewrite Hw; reflexivity. }
  rewrite E. reflexivity.
Qed.

(** C06: the capacity never shrinks. *)
Theorem C46_capacity_grows : forall dbg vs i cb e ops1 ops2 m1 m2 seen, valid_inst i ->
  i_supported vs i cb e (updated (ops1 ++ ops2)) -> Forall (valid_op vs) (ops1 ++ ops2) ->
  i_no_trap dbg i (updated (ops1 ++ ops2)) ->
  i_reaches dbg vs i cb e ops1 m1 -> i_run dbg vs i m1 ops2 = Ret (seen, m2) ->
  i_capa_size dbg vs i m1 <= i_capa_size dbg vs i m2.
Proof.
  intros dbg vs i cb e ops1 ops2 m1 m2 seen Hvi Hsup Hv Hnt Hr E.
  destruct (i_reach_run dbg vs i cb e ops1 ops2 m1 seen m2 Hvi Hsup Hv Hnt Hr E)
    as (K & S & D & b & loc & S2 & D2 & b2 & loc2 & Hi & Hi2 & Hb).
  destruct (i_supported_limit _ _ _ _ _ Hvi Hsup) as (He & _). pose proof (ip_ok _ _ _ _ _ _ K) as PK.
  destruct (minv_capa _ _ _ _ e _ _ _ _ _ PK m1 S D _ b loc Hi) as (_ & Hc & _).
  destruct (minv_capa _ _ _ _ e _ _ _ _ _ PK m2 S2 D2 _ b2 loc2 Hi2) as (_ & Hc2 & _).
  pose proof (minv_bits _ _ _ _ e _ _ _ _ _ PK m1 S D _ b loc Hi) as B1.
  pose proof (minv_bits _ _ _ _ e _ _ _ _ _ PK m2 S2 D2 _ b2 loc2 Hi2) as B2. unfold bits_limit in B1, B2.
  unfold i_capa_size, map_capa_size. rewrite Hc, Hc2, !p2_size_ones by lia. apply pow2_le, Hb.
Qed.

(** ** The hypotheses are met *)
(** A compact FK-hash trie that doubles at 65% with its labels in separate blocks, no alias; the history uses a key that
    is a prefix of another, then an absent key and a key that is there are updated. *)
Definition si : inst := mkInst (T_compact_fkhash std_hashers (mkDP 3 6 70 80) 65) None.
Definition sh : list op := [Update [97; 98; 99; 0] (Some [1; 1]); Update [97; 0] (Some [2; 2]); Update [97; 98; 100; 0] None].
Example sh_valid : valid_inst si /\ (exists m, i_reaches true 2 si 0 1 sh m) /\
  (forall k, k = [97; 0] \/ k = [98; 0] -> i_supported 2 si 0 1 (updated sh ++ [k]) /\ i_no_trap true si (updated sh ++ [k]) /\ valid_key k) /\
  Forall (valid_op 2) sh /\ i_par (mkInst (T_plain_bonsai vigna_hasher 70) None) = None.
Proof.
  assert (Hk : forall s, Forall (fun c => 0 < c < 256) s -> valid_key (s ++ [0])) by (intros s Hs; exists s; auto).
  assert (K1 : valid_key [97; 98; 99; 0]) by (apply (Hk [97; 98; 99]); repeat constructor).
  assert (K2 : valid_key [97; 0]) by (apply (Hk [97]); repeat constructor).
  assert (K3 : valid_key [97; 98; 100; 0]) by (apply (Hk [97; 98; 100]); repeat constructor).
  assert (K4 : valid_key [98; 0]) by (apply (Hk [98]); repeat constructor).
  assert (V : valid_inst si). { split; [cbn; lia|]. split; [cbn; lia|]. cbn. split; exact HashP.split_mix_ok. }
  assert (Hv : Forall (valid_op 2) sh) by (repeat constructor; assumption).
  split; [exact V|]. split.
  { assert (Hs : i_supported 2 si 0 1 (updated sh)).
    { split; [lia|]. split; [vm_compute; discriminate|]. split; [vm_compute; reflexivity|]. apply Nat.leb_le. vm_compute. reflexivity. }
    destruct (i_run_ok true 2 si 0 1 sh V Hs Hv) as (m0 & E & [([xs m] & Er & _)|[[Hn _] _]]); [intros H; discriminate H| |].
    - exists m, m0, xs. auto.
    - exfalso. revert Hn. cbn. lia. }
  split.
  { intros k [-> | ->]; (split; [|split; [intros H; discriminate H|assumption]]);
      (split; [lia|]; split; [vm_compute; discriminate|]; split; [vm_compute; reflexivity|]; apply Nat.leb_le; vm_compute; reflexivity). }
  split; [exact Hv|reflexivity].
Qed.
Definition inst_step_props := (@C46_update_value, @C46_other_keys, @C46_invalid_keys, @C46_constructor, @C46_constructor_limit, @C46_capacity_grows).
Print Assumptions inst_step_props.
