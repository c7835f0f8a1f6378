(** Properties of the maps: C01-C08, C09 (first half), C11-C13, C15.
    The specification is Props/MapSpec.v; [supported], [no_trap], [reaches], [yields] and
    [find_value] are defined in Props/ReachSpec.v. *)
From Verif.Proofs Require Import ReachP FastP.
Local Open Scope N_scope.

(** ** C01 The map is a string dictionary *)
(** Any history on a map built with any supported capacity and lambda: what the user sees is what the
    dictionary shows, for both settings of assertions and every value size. *)
Theorem C01_dictionary : forall dbg vs a cb e ops,
  supported vs cb e (updated ops) -> Forall (valid_op vs) ops -> no_trap dbg a (updated ops) ->
  exists m0, a_new dbg vs a cb (2 ^ e) = Ret m0 /\
    yields a cb e (updated ops) (a_run dbg vs a m0 ops) (fun '(seen, _) => seen = fst (spec_run vs ∅ ops)).
Proof. intros dbg vs a cb e ops Hs Hv Hnt. apply (run_total dbg vs a cb e _ Hs ops eq_refl Hv Hnt). Qed.
(** find after any history: the value last written, zeroes if only registered, nullptr if the key was
    never passed to update. *)
Theorem C01_find : forall dbg vs a cb e ops m k,
  supported vs cb e (updated ops) -> Forall (valid_op vs) ops -> no_trap dbg a (updated ops) ->
  reaches dbg vs a cb e ops m -> valid_key k -> N.of_nat (length k) < 2 ^ 64 ->
  find_value dbg vs a m k = Ret (value_after vs k None ops).
Proof.
  intros dbg vs a cb e ops m k Hsup Hv Hnt Hr Hk Hlen.
  destruct (reach_inv dbg vs a cb e _ Hsup ops [] m (eq_sym (app_nil_r _)) Hv Hnt Hr) as (S & D & b & loc & Hi & _).
  destruct (supported_limit _ _ _ _ Hsup) as (He & _).
  rewrite (inv_find dbg vs a cb e _ Hsup m S D _ b loc k Hi Hk Hlen). f_equal. apply final_value.
Qed.
(** find returns nullptr exactly for the keys never passed to update. *)
Theorem C01_find_null : forall dbg vs a cb e ops m k,
  supported vs cb e (updated ops) -> Forall (valid_op vs) ops -> no_trap dbg a (updated ops) ->
  reaches dbg vs a cb e ops m -> valid_key k -> N.of_nat (length k) < 2 ^ 64 ->
  (a_find dbg vs a m k = Ret None <-> ~ In k (updated ops)).
Proof.
  intros dbg vs a cb e ops m k Hsup Hv Hnt Hr Hk Hlen.
  pose proof (C01_find dbg vs a cb e ops m k Hsup Hv Hnt Hr Hk Hlen) as H.
  rewrite <- (value_after_none vs k ops). unfold find_value in H.
  destruct (a_find dbg vs a m k) as [[p|]| | | |]; try discriminate; simpl in H.
  - destruct (a_read dbg vs a m p); try discriminate. injection H as H. split; [discriminate|congruence].
  - injection H as H. split; [intros _; congruence|reflexivity].
Qed.

(** ** C02 New keys start at zero, existing keys keep their value *)
Theorem C02_update_value : forall dbg vs a cb e ops m k,
  supported vs cb e (updated ops ++ [k]) -> Forall (valid_op vs) ops -> no_trap dbg a (updated ops ++ [k]) ->
  reaches dbg vs a cb e ops m -> valid_key k -> N.of_nat (length k) + N.of_nat vs < 2 ^ 64 ->
  yields a cb e (updated ops ++ [k]) (a_update dbg vs a m k) (fun '(r, m') => exists p, r = UPtr (Some p) /\
    a_read dbg vs a m' p = Ret (default (replicate vs 0) (value_after vs k None ops))).
Proof.
  intros dbg vs a cb e ops m k Hsup Hv Hnt Hr Hk Hsm.
  destruct (reach_update dbg vs a cb e _ Hsup ops m k eq_refl Hv Hnt Hk Hsm Hr) as (S & D & b & loc & Hi & Hy).
  eapply yields_mono; [exact Hy|]. intros [r m'] (p & S' & D' & b' & loc' & -> & _ & _ & Hi' & Hp).
  exists p. split; [reflexivity|]. destruct (inv_read dbg vs a cb e _ Hsup m' _ _ _ _ _ k p Hi' Hp) as (v & Hv' & E).
  rewrite lookup_insert in Hv'. injection Hv' as <-. rewrite E. f_equal.
  rewrite final_value. unfold zeros. rewrite zeros_replicate. reflexivity.
Qed.

(** ** C03 size() counts distinct keys *)
Theorem C03_size : forall dbg vs a cb e ops m,
  supported vs cb e (updated ops) -> Forall (valid_op vs) ops -> no_trap dbg a (updated ops) ->
  reaches dbg vs a cb e ops m ->
  a_size dbg vs a m = N.of_nat (length (nodup (List.list_eq_dec N.eq_dec) (updated ops))).
Proof.
  intros dbg vs a cb e ops m Hsup Hv Hnt Hr.
  destruct (reach_inv dbg vs a cb e _ Hsup ops [] m (eq_sym (app_nil_r _)) Hv Hnt Hr) as (S & D & b & loc & Hi & _).
  unfold a_size.
  destruct (supported_limit _ _ _ _ Hsup) as (He & _ & Hroom & _).
  rewrite (minv_size_small _ _ _ 90 e _ _ _ _ _ (reach_pk dbg vs a cb e _ Hsup) He mf90 m S D _ b loc Hi)
    by (rewrite dom_final; cbn [alias_lim l_max]; unfold nodes_for; lia). f_equal. rewrite final_size. apply distinct_size.
Qed.

(** ** C04 Operations on one key do not disturb another *)
(** Before and after update(k), and after a write through the pointer it returned, find(k') gives the same
    value for every other key k' (also across a growth of the table). *)
Theorem C04_other_keys : forall dbg vs a cb e ops m k k' w,
  supported vs cb e (updated ops ++ [k]) -> Forall (valid_op vs) ops -> no_trap dbg a (updated ops ++ [k]) ->
  reaches dbg vs a cb e ops m -> valid_key k -> N.of_nat (length k) + N.of_nat vs < 2 ^ 64 -> length w = vs ->
  valid_key k' -> N.of_nat (length k') < 2 ^ 64 -> k' <> k ->
  yields a cb e (updated ops ++ [k]) (a_update dbg vs a m k) (fun '(r, m1) => exists p m2, r = UPtr (Some p) /\ a_write dbg vs a m1 p w = Ret m2 /\
    find_value dbg vs a m1 k' = find_value dbg vs a m k' /\
    find_value dbg vs a m2 k' = find_value dbg vs a m k' /\
    find_value dbg vs a m2 k = Ret (Some w)).
Proof.
  intros dbg vs a cb e ops m k k' w Hsup Hv Hnt Hr Hk Hsm Hw Hk' Hlen' Hne.
  destruct (reach_update dbg vs a cb e _ Hsup ops m k eq_refl Hv Hnt Hk Hsm Hr) as (S & D & b & loc & Hi & Hy).
  destruct (supported_limit _ _ _ _ Hsup) as (He & _).
  eapply yields_mono; [exact Hy|]. intros [r m1] (p & S' & D' & b' & loc' & -> & _ & _ & Hi' & Hp).
  destruct (inv_write dbg vs a cb e _ Hsup m1 _ _ _ _ _ k p w Hi' Hp Hw) as (m2 & D2 & Ew & Hi2 & _).
  exists p, m2. split; [reflexivity|]. split; [exact Ew|].
  rewrite (inv_find dbg vs a cb e _ Hsup m _ _ _ _ _ k' Hi Hk' Hlen').
  rewrite (inv_find dbg vs a cb e _ Hsup m1 _ _ _ _ _ k' Hi' Hk' Hlen').
  rewrite (inv_find dbg vs a cb e _ Hsup m2 _ _ _ _ _ k' Hi2 Hk' Hlen').
  rewrite (inv_find dbg vs a cb e _ Hsup m2 _ _ _ _ _ k Hi2 Hk) by (clear -Hsm; lia).
  rewrite insert_insert, lookup_insert, !lookup_insert_ne by congruence. auto.
Qed.

(** ** C05 Invalid arguments are rejected and change nothing *)
(** For every state whatsoever (a [Throw] outcome carries no new state: the map is left as it was). *)
Theorem C05_invalid_keys : forall dbg vs a (m : a_map dbg vs a) k,
  (k = [] -> a_find dbg vs a m k = Throw ExEmptyKey /\ a_update dbg vs a m k = Throw ExEmptyKey) /\
  (k <> [] -> List.last k 0 <> 0 ->
     a_find dbg vs a m k = Throw ExNotTerminated /\ a_update dbg vs a m k = Throw ExNotTerminated).
Proof.
  intros dbg vs a m k. split.
  - intros ->. split; reflexivity.
  - intros Hne Hl. unfold a_find, a_update, map_find, map_update, check_key.
    destruct k as [|c k]; [congruence|]. unfold throw_if at 1 3. rewrite !bind_ret.
    rewrite (proj2 (N.eqb_neq _ _) Hl). split; reflexivity.
Qed.
Theorem C05_find_never_throws : forall dbg vs a cb e ops m k,
  supported vs cb e (updated ops) -> Forall (valid_op vs) ops -> no_trap dbg a (updated ops) ->
  reaches dbg vs a cb e ops m -> valid_key k -> N.of_nat (length k) < 2 ^ 64 ->
  exists r, a_find dbg vs a m k = Ret r.
Proof.
  intros dbg vs a cb e ops m k Hsup Hv Hnt Hr Hk Hlen.
  pose proof (C01_find dbg vs a cb e ops m k Hsup Hv Hnt Hr Hk Hlen) as H. unfold find_value in H.
  destruct (a_find dbg vs a m k) as [r| | | |]; try discriminate. eauto.
Qed.
Theorem C05_constructor : forall dbg vs a cb lambda, (1 <= vs)%nat -> lambda < 2 ^ 64 ->
  ((forall e, lambda <> 2 ^ e) -> a_new dbg vs a cb lambda = Throw ExLambda) /\
  (forall e, lambda = 2 ^ e -> N.max 16 cb + e <= 55 -> exists m, a_new dbg vs a cb lambda = Ret m).
Proof.
  intros dbg vs a cb lambda Hvs Hl. split.
  - intros Hn. unfold a_new, map_new. assert (E : is_power2 lambda = false).
    { destruct (is_power2 lambda) eqn:E; [|reflexivity]. apply (is_power2_ok lambda Hl) in E as [k Hk]. destruct (Hn k Hk). }
    rewrite E. reflexivity.
  - intros e -> Hcb. assert (Hs : supported vs cb e []); [|destruct (new_inv dbg vs a cb e [] Hs) as (m & E & _); eauto].
    split; [exact Hvs|]. split; [exact Hcb|]. split; [|vm_compute; lia].
    change (nodes_for e []) with 0. apply (N.lt_le_trans _ (2 ^ 15)); [reflexivity|]. apply pow2_le. lia.
Qed.
(** The limit is exact: with a power of two beyond it no map is built. Either a width reaches 64 in [size_p2]
    (a shift by 64 or more), or the hash keys would need 64 bits or more: the packed table of the plain tries
    throws, the hasher of the compact tries fails its assertion. *)
Definition plain_trie (a : alias) : bool := match a with compact_bonsai_map _ | compact_fkhash_map _ => false | _ => true end.
Theorem C05_constructor_limit : forall dbg vs a cb e, e < 64 -> 55 < N.max 16 cb + e ->
  a_new dbg vs a cb (2 ^ e) =
    if (64 <=? cb) || (56 <=? e) then UB else if plain_trie a then Throw ExWidth else AssertFail.
Proof.
  intros dbg vs a cb e He H. unfold a_new, map_new.
  assert (Hp : is_power2 (2 ^ e) = true). { apply is_power2_ok; [apply pow2_lt; lia|]. eauto. }
  assert (Hcl : ceil_log2 (2 ^ e) = Ret e).
  { pose proof (pow2_pos e) as Hpp.
    destruct (ceil_log2_ok (2 ^ e) ltac:(lia) (pow2_lt _ _ He)) as (n & E & H1 & H2).
    rewrite E. f_equal. specialize (H2 e ltac:(lia)). destruct (N.eq_dec n e) as [|Hne]; [assumption|].
    assert (2 ^ n < 2 ^ e); [apply pow2_lt; lia|lia]. }
  rewrite Hp. unfold throw_if; cbn [negb]. rewrite bind_ret, Hcl. rewrite bind_ret.
  assert (E1 : p2_new (N.max 16 cb) = if 64 <=? cb then UB else p2_new (N.max 16 cb)).
  { destruct (N.leb_spec 64 cb) as [Hc|Hc]; [|reflexivity]. unfold p2_new. rewrite (proj2 (N.ltb_ge _ _)) by lia. reflexivity. }
  assert (E2 : p2_new (8 + e) = if 56 <=? e then UB else p2_new (8 + e)).
  { destruct (N.leb_spec 56 e) as [Hc|Hc]; [|reflexivity]. unfold p2_new. rewrite (proj2 (N.ltb_ge _ _)) by lia. reflexivity. }
  assert (E : t_new (a_trie dbg a) cb (8 + e) = if (64 <=? cb) || (56 <=? e) then UB else if plain_trie a then Throw ExWidth else AssertFail).
  { destruct (N.leb_spec 64 cb) as [Hc|Hc].
    { destruct a; cbn [a_trie pb_ops cb_ops pf_ops cf_ops t_new]; unfold pb_new, pf_new, cb_new, cf_new, dt_new;
        change trie_min_capa_bits with 16; rewrite E1; reflexivity. }
    assert (E1' : p2_new (N.max 16 cb) = Ret (mkP2 (N.max 16 cb) (N.ones (N.max 16 cb)))) by (apply p2_new_eq; lia).
    destruct (N.leb_spec 56 e) as [Hc2|Hc2].
    { destruct a; cbn [a_trie pb_ops cb_ops pf_ops cf_ops t_new]; unfold pb_new, pf_new, cb_new, cf_new, dt_new;
        change trie_min_capa_bits with 16; rewrite E1', bind_ret, E2; reflexivity. }
    assert (E2' : p2_new (8 + e) = Ret (mkP2 (8 + e) (N.ones (8 + e)))) by (apply p2_new_eq; lia).
    cbn [orb].
    assert (Hw : (64 <=? N.max 16 cb + (8 + e)) = true) by (apply N.leb_le; lia).
    assert (Hw2 : (N.max 16 cb + (8 + e) <? 64) = false) by (apply N.ltb_ge; lia).
    destruct a; cbn [a_trie pb_ops cb_ops pf_ops cf_ops t_new plain_trie]; idtac.
    all: try (unfold pb_new, pf_new; change trie_min_capa_bits with 16; rewrite E1', bind_ret, E2', bind_ret; cbn [p2_bits]).
    all: try (unfold cv_new; rewrite Hw; reflexivity).
    all: unfold cb_new, cf_new, dt_new; change trie_min_capa_bits with 16; rewrite E1', bind_ret, E2', bind_ret; cbn [p2_bits].
    all: change (@hasher_new th_trie) with sm_new; unfold sm_new; rewrite Hw2, andb_false_r; reflexivity. }
  rewrite E. destruct (_ || _); [reflexivity|]. destruct (plain_trie a); reflexivity.
Qed.
Corollary C05_constructor_exact : forall dbg vs a cb lambda, (1 <= vs)%nat -> lambda < 2 ^ 64 ->
  (exists m, a_new dbg vs a cb lambda = Ret m) <-> exists e, lambda = 2 ^ e /\ N.max 16 cb + e <= 55.
Proof.
  intros dbg vs a cb lambda Hvs Hl. destruct (C05_constructor dbg vs a cb lambda Hvs Hl) as [H1 H2]. split.
  - intros [m Hm]. destruct (is_power2 lambda) eqn:E.
    + apply (is_power2_ok lambda Hl) in E as [e He]. exists e. split; [exact He|].
      destruct (N.le_gt_cases (N.max 16 cb + e) 55) as [|Hgt]; [assumption|]. subst lambda.
      assert (He : e < 64). { apply N.nle_gt. intros Hn. apply (pow2_le 64 e) in Hn. lia. }
      rewrite (C05_constructor_limit dbg vs a cb e He Hgt) in Hm.
      destruct (_ || _); [discriminate|]. destruct (plain_trie a); discriminate.
    + unfold a_new, map_new in Hm. rewrite E in Hm. discriminate.
  - intros (e & He & Hle). eauto.
Qed.
Example C05_limit_example :
  a_new true 8 plain_bonsai_map 50 (2 ^ 6) = Throw ExWidth /\ a_new true 8 (compact_fkhash_map cs8) 50 (2 ^ 6) = AssertFail /\
  a_new true 8 plain_fkhash_map 64 (2 ^ 0) = UB.
Proof. rewrite (C05_constructor_limit true 8 plain_bonsai_map 50 6), (C05_constructor_limit true 8 (compact_fkhash_map cs8) 50 6), (C05_constructor_limit true 8 plain_fkhash_map 64 0) by reflexivity. repeat split. Qed.

(** ** C06 Growth is transparent and the load stays below the limit *)
(** [max_size_of c 90] is the limit of C38: floor(90% of c) for capacities up to 2^49, always below c. *)
Theorem C06_capacity : forall dbg vs a cb e ops m,
  supported vs cb e (updated ops) -> Forall (valid_op vs) ops -> no_trap dbg a (updated ops) ->
  reaches dbg vs a cb e ops m ->
  exists b, a_capa_size dbg vs a m = 2 ^ b /\ 16 <= b /\ cb <= b /\ b + e <= 55 /\
    a_nodes dbg vs a m < 2 ^ b /\
    (t_kind (a_trie dbg a) = Bonsai -> a_nodes dbg vs a m < max_size_of (2 ^ b) 90) /\
    (t_kind (a_trie dbg a) = Fkhash -> a_nodes dbg vs a m <= max_size_of (2 ^ b) 90).
Proof.
  intros dbg vs a cb e ops m Hsup Hv Hnt Hr.
  destruct (reach_inv dbg vs a cb e _ Hsup ops [] m (eq_sym (app_nil_r _)) Hv Hnt Hr) as (S & D & b & loc & Hi & _ & Hb).
  destruct (supported_limit _ _ _ _ Hsup) as (He & Hcb & _).
  pose proof (reach_pk dbg vs a cb e _ Hsup) as PK.
  destruct (minv_capa _ _ _ 90 e _ _ _ _ _ PK m S D _ b loc Hi) as (_ & Hc & Hz & Hl).
  pose proof (minv_bits _ _ _ 90 e _ _ _ _ _ PK m S D _ b loc Hi) as Hb2. unfold bits_limit in Hb2.
  assert (Hb56 : b <= 56) by lia.
  exists b. unfold a_capa_size, a_nodes, map_capa_size. rewrite Hc, Hz, p2_size_ones by lia.
  pose proof (max_size_lt b 90 ltac:(lia) mf90) as Hlt.
  destruct (ms_ok2_facts b 90 Hb56 mf90) as (_ & _ & H16). destruct (H16 ltac:(lia)) as [H655 _].
  split; [reflexivity|]. split; [lia|]. split; [lia|]. split; [lia|].
  destruct (t_kind (a_trie dbg a)); (split; [|split; intros Hk; try discriminate Hk]).
  - destruct Hl as [Hl| ->]; [lia|]. rewrite map_size_empty. apply pow2_pos.
  - destruct Hl as [Hl| ->]; [exact Hl|]. rewrite map_size_empty. lia.
  - lia.
  - exact Hl.
Qed.
(** The capacity never shrinks. *)
Theorem C06_capacity_grows : forall dbg vs a cb e ops1 ops2 m1 m2 seen,
  supported vs cb e (updated (ops1 ++ ops2)) -> Forall (valid_op vs) (ops1 ++ ops2) ->
  no_trap dbg a (updated (ops1 ++ ops2)) ->
  reaches dbg vs a cb e ops1 m1 -> a_run dbg vs a m1 ops2 = Ret (seen, m2) ->
  a_capa_size dbg vs a m1 <= a_capa_size dbg vs a m2.
Proof.
  intros dbg vs a cb e ops1 ops2 m1 m2 seen Hsup Hv Hnt Hr E.
  apply Forall_app in Hv as [Hv1 Hv2]. rewrite updated_app in Hnt.
  destruct (no_trap_app _ _ _ _ Hnt) as [Hnt1 Hnt2].
  destruct (reach_inv dbg vs a cb e _ Hsup ops1 (updated ops2) m1 (updated_app _ _) Hv1 Hnt1 Hr) as (S & D & b & loc & Hi & HSA & Hb).
  pose proof (run_inv dbg vs a cb e _ Hsup ops1 ops2 [] m1 S D b loc (eq_sym (app_nil_r _)) Hv2 Hnt2 Hi HSA) as Hy.
  destruct (yields_ret _ _ _ _ _ _ _ Hy E) as (_ & S2 & D2 & b2 & loc2 & Hb2 & Hi2 & _).
  pose proof (reach_pk dbg vs a cb e _ Hsup) as PK.
  destruct (minv_capa _ _ _ 90 e _ _ _ _ _ PK m1 S D _ b loc Hi) as (_ & Hc & _).
  destruct (minv_capa _ _ _ 90 e _ _ _ _ _ PK m2 S2 D2 _ b2 loc2 Hi2) as (_ & Hc2 & _).
  pose proof (minv_bits _ _ _ 90 e _ _ _ _ _ PK m1 S D _ b loc Hi) as B1.
  pose proof (minv_bits _ _ _ 90 e _ _ _ _ _ PK m2 S2 D2 _ b2 loc2 Hi2) as B2. unfold bits_limit in B1, B2.
  unfold a_capa_size, map_capa_size. rewrite Hc, Hc2, !p2_size_ones by lia. apply pow2_le, Hb2.
Qed.

(** ** C07 Results do not depend on lambda or on the initial capacity *)
Theorem C07_parameters : forall dbg vs a cb e cb' e' ops,
  supported vs cb e (updated ops) -> supported vs cb' e' (updated ops) -> Forall (valid_op vs) ops ->
  no_trap dbg a (updated ops) ->
  exists m m', a_new dbg vs a cb (2 ^ e) = Ret m /\ a_new dbg vs a cb' (2 ^ e') = Ret m' /\
    yields a cb e (updated ops) (a_run dbg vs a m ops) (fun '(seen, _) =>
      yields a cb' e' (updated ops) (a_run dbg vs a m' ops) (fun '(seen', _) => seen' = seen)).
Proof.
  intros dbg vs a cb e cb' e' ops Hs Hs' Hv Hnt.
  destruct (C01_dictionary dbg vs a cb e ops Hs Hv Hnt) as (m & Em & Hy).
  destruct (C01_dictionary dbg vs a cb' e' ops Hs' Hv Hnt) as (m' & Em' & Hy').
  exists m, m'. split; [exact Em|]. split; [exact Em'|].
  eapply yields_mono; [exact Hy|]. intros [seen m1] ->. eapply yields_mono; [exact Hy'|]. intros [seen' m2] ->. reflexivity.
Qed.

(** ** C08 The aliases are interchangeable *)
Theorem C08_aliases : forall dbg dbg' vs a a' cb e cb' e' ops,
  supported vs cb e (updated ops) -> supported vs cb' e' (updated ops) -> Forall (valid_op vs) ops ->
  no_trap dbg a (updated ops) -> no_trap dbg' a' (updated ops) ->
  exists m m', a_new dbg vs a cb (2 ^ e) = Ret m /\ a_new dbg' vs a' cb' (2 ^ e') = Ret m' /\
    yields a cb e (updated ops) (a_run dbg vs a m ops) (fun '(seen, _) =>
      yields a' cb' e' (updated ops) (a_run dbg' vs a' m' ops) (fun '(seen', _) => seen' = seen)).
Proof.
  intros dbg dbg' vs a a' cb e cb' e' ops Hs Hs' Hv Hnt Hnt'.
  destruct (C01_dictionary dbg vs a cb e ops Hs Hv Hnt) as (m & Em & Hy).
  destruct (C01_dictionary dbg' vs a' cb' e' ops Hs' Hv Hnt') as (m' & Em' & Hy').
  exists m, m'. split; [exact Em|]. split; [exact Em'|].
  eapply yields_mono; [exact Hy|]. intros [seen m1] ->. eapply yields_mono; [exact Hy'|]. intros [seen' m2] ->. reflexivity.
Qed.

(** ** C09 (first half) Up to 254 distinct bytes update never throws *)
Theorem C09_no_throw : forall dbg vs a cb e ops m k,
  supported vs cb e (updated ops ++ [k]) -> Forall (valid_op vs) ops -> no_trap dbg a (updated ops ++ [k]) ->
  reaches dbg vs a cb e ops m -> valid_key k -> N.of_nat (length k) + N.of_nat vs < 2 ^ 64 ->
  yields a cb e (updated ops ++ [k]) (a_update dbg vs a m k) (fun '(r, _) => exists p, r = UPtr (Some p)).
Proof.
  intros dbg vs a cb e ops m k Hsup Hv Hnt Hr Hk Hsm.
  eapply yields_mono; [apply (C02_update_value dbg vs a cb e ops m k); assumption|].
  intros [r m'] (p & -> & _). eauto.
Qed.

(** ** C11 Value pointers of the plain maps are stable *)
(** Histories that keep every returned pointer and use it at any later time: a pointer returned for a key
    always reads and writes that key's current value. *)
Theorem C11_stable_pointers : forall dbg vs a cb e ops r, stable_alias a = true ->
  supported vs cb e (hupdated ops) -> Forall (hvalid_op vs) ops -> no_trap dbg a (hupdated ops) ->
  hspec_run vs (∅, []) ops = Some r ->
  exists m0, a_new dbg vs a cb (2 ^ e) = Ret m0 /\
    yields a cb e (hupdated ops) (a_hrun dbg vs a m0 ops) (fun '(seen, _, _) => seen = fst r).
Proof.
  intros dbg vs a cb e ops r Hst Hsup Hv Hnt Hr. destruct (new_inv dbg vs a cb e _ Hsup) as (m0 & E0 & Hi).
  exists m0. split; [exact E0|]. destruct (supported_limit _ _ _ _ Hsup) as (He & Hcb & Hroom & HA).
  pose proof (reach_pk dbg vs a cb e _ Hsup) as PK.
  eapply yields_mono.
  { apply wpx_yields; [apply (sup_bits vs cb e _ Hsup)|]. unfold a_hrun.
    apply (hrun_ok dbg _ _ _ 90 e _ _ _ _ _ PK He mf90 ops (a_stable vs a _ Hst) m0 [] {[ 0 ]} ∅ ∅ [] _ ∅ (alphabet (hupdated ops)) r Hi); auto.
    - constructor.
    - rewrite a_vs. exact Hv.
    - apply no_trap_forall, Hnt.
    - unfold alphabet. set_solver.
    - cbn [alias_lim l_max]. rewrite dom_empty_L, union_empty_l_L. unfold nodes_for. lia.
    - rewrite a_vs. exact Hr. }
  intros [[seen m1] hs] [-> _]. reflexivity.
Qed.

(** ** C12 Insertion order does not matter *)
Definition inserts (kvs : list (list N * list N)) : list op := map (fun kv => Update (fst kv) (Some (snd kv))) kvs.
Lemma updated_inserts kvs : updated (inserts kvs) = map fst kvs.
Proof. induction kvs as [|[k v] kvs IH]; simpl; [reflexivity|]. f_equal. exact IH. Qed.
Lemma value_inserts vs k v0 kvs : value_after vs k v0 (inserts kvs) = v0 /\ ~ In k (map fst kvs) \/
  exists v, In (k, v) kvs /\ value_after vs k v0 (inserts kvs) = Some v.
Proof.
  revert v0. induction kvs as [|[k' v'] kvs IH]; intros v0; simpl; [left; auto|].
  destruct (decide (k = k')) as [->|Hne].
  - right. destruct (IH (Some v')) as [[H _]|(v & H1 & H2)]; [exists v'; auto|exists v; auto].
  - destruct (IH v0) as [[H1 H2]|(v & H1 & H2)]; [left; split; [exact H1|]|right; exists v; auto].
    intros [->|H]; tauto.
Qed.
Theorem C12_order : forall dbg vs a cb e kvs kvs' m m',
  NoDup (map fst kvs) -> Permutation kvs kvs' ->
  supported vs cb e (map fst kvs) -> Forall (valid_op vs) (inserts kvs) -> no_trap dbg a (map fst kvs) ->
  reaches dbg vs a cb e (inserts kvs) m -> reaches dbg vs a cb e (inserts kvs') m' ->
  a_size dbg vs a m = a_size dbg vs a m' /\
  forall k, valid_key k -> N.of_nat (length k) < 2 ^ 64 -> find_value dbg vs a m k = find_value dbg vs a m' k.
Proof.
  intros dbg vs a cb e kvs kvs' m m' Hnd Hp Hsup Hv Hnt Hr Hr'.
  assert (Hpk : Permutation (map fst kvs) (map fst kvs')) by (apply Permutation_map, Hp).
  assert (Hsup' : supported vs cb e (map fst kvs')).
  { destruct Hsup as (H0 & H1 & H2 & H3). split; [exact H0|]. split; [exact H1|].
    assert (Hc : Permutation (concat (map fst kvs)) (concat (map fst kvs'))).
    { clear -Hpk. induction Hpk; simpl.
      - reflexivity.
      - apply Permutation_app_head, IHHpk.
      - rewrite !app_assoc. apply Permutation_app_tail, Permutation_app_comm.
      - etransitivity; eassumption. }
    unfold nodes_for, alphabet in *.
    assert (Es : (list_to_set (concat (map fst kvs')) : gset N) = list_to_set (concat (map fst kvs))).
    { apply set_eq. intros c. rewrite !elem_of_list_to_set. symmetry. rewrite Hc. reflexivity. }
    assert (Ek : (list_to_set (map fst kvs') : gset (list N)) = list_to_set (map fst kvs)).
    { apply set_eq. intros c. rewrite !elem_of_list_to_set. symmetry. rewrite Hpk. reflexivity. }
    rewrite Es, Ek. split; [exact H2|exact H3]. }
  assert (Hv' : Forall (valid_op vs) (inserts kvs')).
  { unfold inserts in *. rewrite <- (Permutation_map _ Hp). exact Hv. }
  assert (Hnt' : no_trap dbg a (map fst kvs')).
  { intros Ht Hin. apply (Hnt Ht). apply (Permutation_in _ (Permutation_sym Hpk) Hin). }
  rewrite <- (updated_inserts kvs) in Hsup, Hnt. rewrite <- (updated_inserts kvs') in Hsup', Hnt'.
  split.
  - rewrite (C03_size dbg vs a cb e _ m Hsup Hv Hnt Hr), (C03_size dbg vs a cb e _ m' Hsup' Hv' Hnt' Hr').
    rewrite <- !distinct_size. f_equal. f_equal. apply set_eq. intros k.
    rewrite !elem_of_list_to_set, !updated_inserts, Hpk. reflexivity.
  - intros k Hk Hlen. rewrite (C01_find dbg vs a cb e _ m k Hsup Hv Hnt Hr Hk Hlen).
    rewrite (C01_find dbg vs a cb e _ m' k Hsup' Hv' Hnt' Hr' Hk Hlen). f_equal.
    assert (Huniq : forall v v', In (k, v) kvs -> In (k, v') kvs -> v = v').
    { clear -Hnd. intros v v' H1 H2. induction kvs as [|[k1 v1] kvs IH]; [destruct H1|].
      apply NoDup_cons in Hnd as [Hn Hnd]. destruct H1 as [H1|H1], H2 as [H2|H2].
      - congruence.
      - injection H1 as -> ->. destruct Hn. apply elem_of_list_In. apply (in_map fst _ _ H2).
      - injection H2 as -> ->. destruct Hn. apply elem_of_list_In. apply (in_map fst _ _ H1).
      - apply IH; assumption. }
    destruct (value_inserts vs k None kvs) as [[H1 H2]|(v & H1 & H2)];
      destruct (value_inserts vs k None kvs') as [[H1' H2']|(v' & H1' & H2')].
    + congruence.
    + destruct H2. apply (Permutation_in _ (Permutation_sym Hpk)). apply (in_map fst _ _ H1').
    + destruct H2'. apply (Permutation_in _ Hpk). apply (in_map fst _ _ H1).
    + rewrite H2, H2'. f_equal. apply Huniq; [exact H1|]. apply (Permutation_in _ (Permutation_sym Hp) H1').
Qed.

(** ** C13 No undefined behaviour, no failed assertion, no endless loop on valid use *)
Theorem C13_safe : forall dbg vs a cb e ops,
  supported vs cb e (updated ops) -> Forall (valid_op vs) ops -> no_trap dbg a (updated ops) ->
  exists m0, a_new dbg vs a cb (2 ^ e) = Ret m0 /\
    a_run dbg vs a m0 ops <> UB /\ a_run dbg vs a m0 ops <> Diverge /\
    (forall x, a_run dbg vs a m0 ops <> Throw x) /\
    (~ near_full a cb e (updated ops) -> a_run dbg vs a m0 ops <> AssertFail).
Proof.
  intros dbg vs a cb e ops Hs Hv Hnt. destruct (C01_dictionary dbg vs a cb e ops Hs Hv Hnt) as (m & Em & Hy).
  exists m. split; [exact Em|]. destruct Hy as [([xs m'] & E & _)|[Hx E]]; rewrite E; repeat split; congruence.
Qed.

(** ** C15 A default-constructed map is an empty map *)
Theorem C15_default_find : forall dbg vs a k, valid_key k ->
  a_find dbg vs a (a_default dbg vs a) k = Ret None /\ a_size dbg vs a (a_default dbg vs a) = 0.
Proof.
  intros dbg vs a k Hk. destruct (valid_okey k Hk) as [Hok _]. split; [|reflexivity].
  unfold a_find, map_find. rewrite (check_key_ok k Hok). reflexivity.
Qed.
Theorem C15_default_update : forall dbg vs a k, (1 <= vs)%nat -> valid_key k ->
  a_update dbg vs a (a_default dbg vs a) k =
  (let* m := a_new dbg vs a 0 32 in a_update dbg vs a m k).
Proof.
  intros dbg vs a k Hvs Hk. destruct (valid_okey k Hk) as [Hok _].
  assert (Hs0 : supported vs 0 5 []).
  { split; [exact Hvs|]. split; [vm_compute; discriminate|]. split; [reflexivity|]. vm_compute. lia. }
  destruct (new_inv dbg vs a 0 5 [] Hs0) as (m & E & Hi).
  change (2 ^ 5) with 32 in E. rewrite E, bind_ret.
  pose proof (reach_pk dbg vs a 0 5 _ Hs0) as PK.
  destruct (minv_capa _ _ _ 90 5 _ _ _ _ _ PK m _ _ _ _ _ Hi) as (Hrd & _ & Hz & _).
  rewrite map_size_empty in Hz.
  unfold a_update, map_update, update_body. rewrite (check_key_ok k Hok), !bind_ret.
  unfold a_default, map_default. cbn [m_trie m_ready].
  rewrite (so_default _ _ _ _ _ _ _ _ _ _ PK), Hz, N.eqb_refl. cbn [negb N.of_nat]. rewrite N.eqb_refl, Hrd.
  unfold a_new in E. rewrite E. reflexivity.
Qed.
(** Hence every history on a default-constructed map looks like the dictionary. *)
Theorem C15_default_history : forall dbg vs a ops,
  supported vs 0 5 (updated ops) -> Forall (valid_op vs) ops -> no_trap dbg a (updated ops) ->
  yields a 0 5 (updated ops) (a_run dbg vs a (a_default dbg vs a) ops) (fun '(seen, _) => seen = fst (spec_run vs ∅ ops)).
Proof.
  intros dbg vs a ops Hs Hv Hnt.
  assert (Hfind : forall k m, valid_key k -> (m = a_default dbg vs a) ->
    api_step dbg _ _ m (Find k) = Ret ((Found None, 0), m)).
  { intros k m Hk ->. destruct (C15_default_find dbg vs a k Hk) as [E _]. unfold api_step.
    unfold a_find in E. rewrite E. reflexivity. }
  assert (Hsplit : exists fs rest, ops = map Find fs ++ rest /\ match rest with Find _ :: _ => False | _ => True end).
  { clear. induction ops as [|[k w|k] ops (fs & rest & -> & Hr)].
    - exists [], []. auto.
    - exists [], (Update k w :: map Find fs ++ rest). auto.
    - exists (k :: fs), rest. auto. }
  destruct Hsplit as (fs & rest & -> & Hrest). revert Hs Hv Hnt. induction fs as [|f fs IH]; simpl app; intros Hs Hv Hnt.
  - destruct rest as [|[k w|k] rest]; [left; eexists; split; reflexivity| |destruct Hrest].
    destruct (C01_dictionary dbg vs a 0 5 _ Hs Hv Hnt) as (m0 & E0 & Hy). change (2 ^ 5) with 32 in E0.
    assert (E : a_run dbg vs a (a_default dbg vs a) (Update k w :: rest) = a_run dbg vs a m0 (Update k w :: rest)).
    { apply Forall_cons_1 in Hv as [(Hk & _) _]. pose proof (C15_default_update dbg vs a k (supported_vs _ _ _ _ Hs) Hk) as H.
      rewrite E0 in H. cbn [bind] in H. unfold a_update in H. unfold a_run. cbn [api_run]. unfold api_step.
      rewrite H. reflexivity. }
    rewrite E. exact Hy.
  - apply Forall_cons_1 in Hv as [(Hk & _) Hv]. specialize (IH Hs Hv Hnt).
    unfold a_run in *. cbn [api_run]. rewrite (Hfind f _ Hk eq_refl), bind_ret.
    destruct IH as [([xs m'] & E & Hx)|[Hx E]]; rewrite E.
    + left. eexists. split; [reflexivity|]. cbn [spec_run spec_step]. rewrite lookup_empty, map_size_empty.
      destruct (spec_run vs ∅ (map Find fs ++ rest)) as [ys d]. simpl in *. congruence.
    + right. auto.
Qed.

(** ** C45 The trie has no more nodes, and the map no more capacity, than the keys need *)
(** With lambda = 2^e, a key of n bytes (terminator included) needs at most 1 + (n - 1) / 2^e nodes, and
    every key has a node of its own. *)
Theorem C45_nodes : forall dbg vs a cb e ops m,
  supported vs cb e (updated ops) -> Forall (valid_op vs) ops -> no_trap dbg a (updated ops) ->
  reaches dbg vs a cb e ops m ->
  a_size dbg vs a m <= a_nodes dbg vs a m <= nodes_for e (updated ops).
Proof.
  intros dbg vs a cb e ops m Hsup Hv Hnt Hr.
  destruct (reach_inv dbg vs a cb e _ Hsup ops [] m (eq_sym (app_nil_r _)) Hv Hnt Hr) as (S & D & b & loc & Hi & _ & Hb).
  destruct (supported_limit _ _ _ _ Hsup) as (He & _ & Hroom & _).
  pose proof (reach_pk dbg vs a cb e _ Hsup) as PK.
  destruct (minv_capa _ _ _ 90 e _ _ _ _ _ PK m S D _ b loc Hi) as (_ & _ & Hz & _).
  unfold a_size, a_nodes. rewrite Hz.
  rewrite (minv_size_small _ _ _ 90 e _ _ _ _ _ PK He mf90 m S D _ b loc Hi)
    by (rewrite dom_final; cbn [alias_lim l_max]; unfold nodes_for; lia).
  destruct (minv_count _ _ _ _ _ m _ _ _ _ _ Hi) as [Hc _]. rewrite dom_final in Hc.
  pose proof (minv_count_ge _ _ _ 90 e _ _ _ _ _ PK He m _ _ _ _ _ Hi) as Hg. unfold nodes_for. split; [|exact Hc].
  clear -Hg. lia.
Qed.
(** In particular one node per key if no key is longer than lambda. *)
Corollary C45_one_node_per_key : forall dbg vs a cb e ops m,
  supported vs cb e (updated ops) -> Forall (valid_op vs) ops -> no_trap dbg a (updated ops) ->
  Forall (fun k => N.of_nat (length k) <= 2 ^ e) (updated ops) ->
  reaches dbg vs a cb e ops m ->
  a_nodes dbg vs a m = a_size dbg vs a m.
Proof.
  intros dbg vs a cb e ops m Hsup Hv Hnt Hs Hr. destruct (C45_nodes dbg vs a cb e ops m Hsup Hv Hnt Hr) as [H1 H2].
  apply N.le_antisymm; [|exact H1]. etransitivity; [exact H2|]. rewrite (C03_size dbg vs a cb e ops m Hsup Hv Hnt Hr).
  unfold nodes_for. rewrite nb_short.
  - rewrite (distinct_size _ (List.list_eq_dec N.eq_dec)). reflexivity.
  - intros k Hk. apply elem_of_list_to_set in Hk. rewrite Forall_forall in Hs. apply Hs, Hk.
Qed.
(** The capacity stays at the initial one until the nodes need more: the table is doubled only when it is
    90% full. *)
Theorem C45_capacity : forall dbg vs a cb e ops m,
  supported vs cb e (updated ops) -> Forall (valid_op vs) ops -> no_trap dbg a (updated ops) ->
  reaches dbg vs a cb e ops m ->
  a_capa_size dbg vs a m = 2 ^ N.max 16 cb \/
  9 * a_capa_size dbg vs a m <= 20 * a_nodes dbg vs a m + 18.
Proof.
  intros dbg vs a cb e ops m Hsup Hv Hnt Hr.
  destruct (reach_inv dbg vs a cb e _ Hsup ops [] m (eq_sym (app_nil_r _)) Hv Hnt Hr) as (S & D & b & loc & Hi & _ & Hb).
  pose proof (reach_pk dbg vs a cb e _ Hsup) as PK.
  destruct (minv_capa _ _ _ 90 e _ _ _ _ _ PK m S D _ b loc Hi) as (_ & Hc & Hz & _).
  pose proof (minv_bits _ _ _ 90 e _ _ _ _ _ PK m S D _ b loc Hi) as Hb2. unfold bits_limit in Hb2.
  unfold a_capa_size, a_nodes, map_capa_size. rewrite Hc, Hz, p2_size_ones by lia.
  destruct (minv_tight _ _ _ 90 e _ _ _ _ _ PK m S D _ b loc Hi) as [Ht|Ht]; [left; f_equal; cbn [alias_lim l_b0] in Ht; lia|right].
  pose proof (max_size_ge (b - 1) ltac:(lia)) as Hm. replace b with (b - 1 + 1) at 1 by lia. rewrite pow2_succ.
  clear -Hm Ht. lia.
Qed.
(** So a map that was given enough room at construction never grows. *)
Corollary C45_reserved : forall dbg vs a cb e ops m,
  supported vs cb e (updated ops) -> Forall (valid_op vs) ops -> no_trap dbg a (updated ops) ->
  10 * nodes_for e (updated ops) + 9 < 9 * 2 ^ N.max 16 cb ->
  reaches dbg vs a cb e ops m ->
  a_capa_size dbg vs a m = 2 ^ N.max 16 cb.
Proof.
  intros dbg vs a cb e ops m Hsup Hv Hnt Hn Hr. destruct (C45_nodes dbg vs a cb e ops m Hsup Hv Hnt Hr) as [_ H2].
  destruct (C45_capacity dbg vs a cb e ops m Hsup Hv Hnt Hr) as [H|H]; [exact H|].
  destruct (C06_capacity dbg vs a cb e ops m Hsup Hv Hnt Hr) as (b & E & H16 & Hcb & _). rewrite E in *.
  destruct (N.eq_dec b (N.max 16 cb)) as [->|Hne]; [reflexivity|exfalso].
  assert (2 * 2 ^ N.max 16 cb <= 2 ^ b) by (rewrite <- pow2_succ; apply pow2_le; lia).
  clear -H H0 H2 Hn. lia.
Qed.

(** ** The hypotheses are met by real histories *)
Definition key_of (s : list N) : list N := s ++ [0].
Definition demo : list op :=
  [Update (key_of [116; 101; 99; 104]) (Some [1; 0; 0; 0]); Find (key_of [116]); Update (key_of []) (Some [2; 0; 0; 0]);
   Update (key_of [116; 101; 97]) None; Find (key_of [116; 101; 99; 104]); Update (key_of [116; 101; 97]) (Some [3; 1; 0; 0]);
   Find (key_of [116; 101; 97]); Find (key_of [])].
Example demo_valid : supported 4 0 5 (updated demo) /\ Forall (valid_op 4) demo /\
  no_trap false plain_fkhash_map (updated demo) /\ no_trap true plain_bonsai_map (updated demo).
Proof.
  split; [|split; [|split; intros H; discriminate H]].
  - split; [lia|]. split; [vm_compute; discriminate|]. split; [reflexivity|].
    assert (H : (size (alphabet (updated demo)) <=? 254)%nat = true) by (vm_compute; reflexivity).
    apply Nat.leb_le, H.
  - assert (Hk : forall s, Forall (fun c => 0 < c < 256) s -> valid_key (key_of s)) by (intros s Hs; exists s; auto).
    repeat constructor; try (apply Hk; repeat constructor); try reflexivity.
Qed.
Definition seen_by (dbg : bool) (vs : nat) (a : alias) (cb lambda : N) (ops : list op) : outcome (list (obs * N)) :=
  let* m := a_new dbg vs a cb lambda in let* r := a_run dbg vs a m ops in Ret (fst r).
Example demo_runs : forall a, seen_by false 4 a 0 32 demo =
  Ret [(Saw [0;0;0;0], 1); (Found None, 1); (Saw [0;0;0;0], 2); (Saw [0;0;0;0], 3);
       (Found (Some [1;0;0;0]), 3); (Saw [0;0;0;0], 3); (Found (Some [3;1;0;0]), 3); (Found (Some [2;0;0;0]), 3)].
Proof. intros a. unfold seen_by. rewrite a_new_fast_ok. revert a. intros [|[]|[]| |[]|[]]; run. Qed.
(** lambda = 32 needs one node per key; with lambda = 1 and 2 the bound counts more. *)
Example demo_nodes : nodes_for 5 (updated demo) = 3 /\ nodes_for 1 (updated demo) = 6 /\ nodes_for 0 (updated demo) = 10 /\
  10 * nodes_for 5 (updated demo) + 9 < 9 * 2 ^ N.max 16 0 /\
  Forall (fun k => N.of_nat (length k) <= 2 ^ 5) (updated demo).
Proof. split; [vm_compute; reflexivity|]. split; [vm_compute; reflexivity|]. split; [vm_compute; reflexivity|]. split; [vm_compute; reflexivity|]. repeat constructor; vm_compute; discriminate. Qed.

(** One query for all theorems of this file. *)
Definition map_props := (@C01_dictionary,
  @C01_find,
  @C01_find_null,
  @C02_update_value,
  @C03_size,
  @C04_other_keys,
  @C05_invalid_keys,
  @C05_find_never_throws,
  @C05_constructor,
  @C05_constructor_limit,
  @C05_constructor_exact,
  @C06_capacity,
  @C06_capacity_grows,
  @C07_parameters,
  @C08_aliases,
  @C09_no_throw,
  @C11_stable_pointers,
  @C12_order,
  @C13_safe,
  @C15_default_find,
  @C15_default_update,
  @C15_default_history,
  @C45_nodes,
  @C45_one_node_per_key,
  @C45_capacity,
  @C45_reserved).
Print Assumptions map_props.
