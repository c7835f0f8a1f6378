(** C46: every instantiation of map<Trie, NLM> is the dictionary of MapSpec.v, not only the aliases of poplar.hpp:
    any of the four tries with any label store of its kind (including the pairs no alias uses), any load factor,
    any displacement and quotient-table parameters, any Hasher (a bijective one for the compact tries). *)
From Verif.Proofs Require Import InstP FastP.
From Verif.Props Require Export InstSpec.
Local Open Scope N_scope.

(** Every history of find and update from map(cb, 2^e) observes the dictionary. *)
Theorem C46_dictionary : forall dbg vs i cb e ops, valid_inst i -> i_supported vs i cb e (updated ops) ->
  Forall (valid_op vs) ops -> i_no_trap dbg i (updated ops) ->
  exists m0, i_new dbg vs i cb (2 ^ e) = Ret m0 /\
    i_yields i cb e (updated ops) (i_run dbg vs i m0 ops) (fun '(xs, _) => xs = fst (spec_run vs ∅ ops)).
Proof. exact i_run_ok. Qed.

(** Without the reservation for plain tries, and for compact tries whose quotient table is no less loaded than
    the trie. *)
Theorem C46_no_reservation : forall dbg vs i cb e ops, valid_inst i -> i_supported vs i cb e (updated ops) ->
  Forall (valid_op vs) ops -> i_no_trap dbg i (updated ops) ->
  (forall P, i_par i = Some P -> i_mf i <= dp_cmf P) ->
  exists m0 m, i_new dbg vs i cb (2 ^ e) = Ret m0 /\
    i_run dbg vs i m0 ops = Ret (fst (spec_run vs ∅ ops), m).
Proof.
  intros dbg vs i cb e ops Hvi Hsup Hv Hnt Hex. destruct (i_run_ok dbg vs i cb e ops Hvi Hsup Hv Hnt) as (m0 & E & H).
  exists m0. destruct H as [([xs m] & Er & ->)|[H _]].
  - exists m. auto.
  - exfalso. unfold i_near_full in H. destruct (i_par i) as [P|]; [|exact H].
    specialize (Hex P eq_refl). destruct H as [H _]. lia.
Qed.

(** Two instantiations that both return observe the same. *)
Theorem C46_agree : forall dbg dbg' vs i i' cb cb' e e' ops m0 m0' xs xs' m m',
  valid_inst i -> valid_inst i' -> i_supported vs i cb e (updated ops) -> i_supported vs i' cb' e' (updated ops) ->
  Forall (valid_op vs) ops -> i_no_trap dbg i (updated ops) -> i_no_trap dbg' i' (updated ops) ->
  i_new dbg vs i cb (2 ^ e) = Ret m0 -> i_new dbg' vs i' cb' (2 ^ e') = Ret m0' ->
  i_run dbg vs i m0 ops = Ret (xs, m) -> i_run dbg' vs i' m0' ops = Ret (xs', m') -> xs = xs'.
Proof.
  intros dbg dbg' vs i i' cb cb' e e' ops m0 m0' xs xs' m m' V V' S S' Hv T T' E E' R R'.
  destruct (i_run_ok dbg vs i cb e ops V S Hv T) as (m1 & E1 & H). rewrite E in E1. injection E1 as <-.
  destruct (i_run_ok dbg' vs i' cb' e' ops V' S' Hv T') as (m1 & E1 & H'). rewrite E' in E1. injection E1 as <-.
  destruct H as [([ys my] & Er & ->)|[_ Er]]; [|congruence].
  destruct H' as [([ys my'] & Er' & ->)|[_ Er']]; [|congruence]. congruence.
Qed.

(** With a plain label store, whatever the trie, every returned pointer stays valid: it reads and writes the
    current value of its key in any later state. *)
Theorem C46_pointers : forall dbg vs i cb e ops r, valid_inst i -> i_l i = None ->
  i_supported vs i cb e (hupdated ops) -> Forall (hvalid_op vs) ops -> i_no_trap dbg i (hupdated ops) ->
  hspec_run vs (∅, []) ops = Some r ->
  exists m0, i_new dbg vs i cb (2 ^ e) = Ret m0 /\
    i_yields i cb e (hupdated ops) (i_hrun dbg vs i m0 ops) (fun '(seen, _, _) => seen = fst r).
Proof.
  intros dbg vs i cb e ops r V Hl. apply i_hrun_ok; [exact V|]. unfold i_stable. rewrite Hl. reflexivity.
Qed.

(** On 255 different bytes: at most one call throws, without effect (as C44 for the aliases). *)
Theorem C46_one_throw : forall dbg vs i cb e ops, valid_inst i -> i_supported_255 vs i cb e (updated ops) ->
  Forall (valid_op vs) ops -> i_no_trap dbg i (updated ops) ->
  exists m0, i_new dbg vs i cb (2 ^ e) = Ret m0 /\
    i_yields i cb e (updated ops) (i_try_run dbg vs i m0 ops) (fun '(seen, m) =>
      exists throws d, shows vs throws ∅ ops seen d /\ (throws = true -> size (alphabet (updated ops)) = 255%nat) /\
        i_size dbg vs i m = N.of_nat (size d)).
Proof. exact i_try_run_ok. Qed.

(** C09, builds with assertions: on any bytes whatever, a user who catches the exception sees the dictionary (with
    at most one exception, without effect) or the program stops at an assertion; the latter only if all 256 bytes occur in
    the keys (or the quotient table may be saturated).  What C09_code_exhaustion shows cannot happen. *)
Theorem C09_debug_stops : forall vs i cb e ops, valid_inst i -> i_supported_any vs i cb e (updated ops) ->
  Forall (valid_op vs) ops -> i_no_trap true i (updated ops) ->
  exists m0, i_new true vs i cb (2 ^ e) = Ret m0 /\
    match i_try_run true vs i m0 ops with
    | Ret (seen, m) => exists throws d, shows vs throws ∅ ops seen d /\
        (throws = true -> (255 <= size (alphabet (updated ops)))%nat) /\ i_size true vs i m = N.of_nat (size d)
    | AssertFail => i_near_full i cb e (updated ops) \/ (255 < size (alphabet (updated ops)))%nat
    | _ => False
    end.
Proof. exact i_debug_ok. Qed.

(** size() counts the keys of the dictionary; nodes and capacity are bounded by what the keys need (C03, C06 and C45
    for every instantiation): the load stays within the limit, and a table larger than the initial one is at
    least half as loaded as the limit allows. *)
Theorem C46_bounds : forall dbg vs i cb e ops m, valid_inst i -> i_supported vs i cb e (updated ops) ->
  Forall (valid_op vs) ops -> i_no_trap dbg i (updated ops) -> i_reaches dbg vs i cb e ops m ->
  i_size dbg vs i m = N.of_nat (size (final vs ops)) /\
  i_size dbg vs i m <= i_nodes dbg vs i m <= nodes_for e (updated ops) /\
  exists b, i_capa_size dbg vs i m = 2 ^ b /\ N.max 16 cb <= b /\ b + e <= 55 /\ i_nodes dbg vs i m < 2 ^ b /\
    (is_fkhash i = false -> i_nodes dbg vs i m < max_size_of (2 ^ b) (i_mf i)) /\
    (is_fkhash i = true -> i_nodes dbg vs i m <= max_size_of (2 ^ b) (i_mf i)) /\
    (b = N.max 16 cb \/ i_mf i * 2 ^ b <= 200 * (i_nodes dbg vs i m + 8)).
Proof. exact i_bounds. Qed.

(** The aliases are instantiations. *)
Theorem C46_aliases : forall dbg vs a, valid_inst (inst_of a) /\
  i_trie dbg (inst_of a) = a_trie dbg a /\ i_nlm vs (inst_of a) = a_nlm vs a.
Proof. intros dbg vs [|c|c| |c|c]; (split; [|split; reflexivity]); (split; [cbn; lia|]);
  (split; [cbn; lia|]); cbn; first [exact I|split; exact split_mix_ok]. Qed.

(** ** The hypotheses are met *)
(** Load factor 50, 5 displacement bits in the table, a quotient table of width 3 with load factor 60, over a
    plain label store, and hashers of its own: the trie complements its keys, the overflow table hashes every key
    to 7: a combination no alias has. *)
Definition flip_hasher : bij_hasher :=
  BijHasher N 0 (fun bits => Ret (N.ones bits)) (fun h x => Ret (N.lxor x h)) (fun h x => Ret (N.lxor x h)).
Lemma flip_bijective : bijective flip_hasher.
Proof.
  intros b Hb. exists (N.ones b). split; [reflexivity|]. intros x Hx. exists (N.lxor x (N.ones b)).
  split; [reflexivity|]. split; [apply lxor_lt; [exact Hx|rewrite N.ones_equiv; pose proof (pow2_pos b); lia]|].
  cbn. rewrite N.lxor_assoc, N.lxor_nilpotent, N.lxor_0_r. reflexivity.
Qed.
Definition demo_hashers : trie_hashers := TrieHashers flip_hasher split_mix_hasher (PlainHasher (fun _ => 7)).
Definition demo_inst : inst := mkInst (T_compact_bonsai demo_hashers (mkDP 5 3 60 75) 50) None.
Definition key_of (s : list N) : list N := s ++ [0].
Definition demo : list op :=
  [Update (key_of [116; 101; 99; 104]) (Some [1; 0; 0; 0]); Find (key_of [116]); Update (key_of []) (Some [2; 0; 0; 0]);
   Update (key_of [116; 101; 97]) None; Update (key_of [116; 101; 97]) (Some [3; 1; 0; 0]); Find (key_of [116; 101; 97])].
Definition hdemo : list hop :=
  [HUpdate (key_of [116; 101; 99; 104]); HUpdate (key_of [116; 101; 97]); HWrite 0 [1; 0; 0; 0]; HUpdate (key_of []);
   HFind (key_of [116; 101; 99; 104]); HRead 0; HRead 3; HRead 1].
Example demo_valid : valid_inst demo_inst /\ i_supported 4 demo_inst 0 1 (updated demo) /\ Forall (valid_op 4) demo /\
  i_no_trap true demo_inst (updated demo) /\ (forall P, i_par demo_inst = Some P -> i_mf demo_inst <= dp_cmf P) /\
  i_supported 4 demo_inst 0 1 (hupdated hdemo) /\ Forall (hvalid_op 4) hdemo /\
  i_no_trap true demo_inst (hupdated hdemo).
Proof.
  assert (Hk : forall s, Forall (fun c => 0 < c < 256) s -> valid_key (key_of s)) by (intros s Hs; exists s; auto).
  split; [split; [cbn; lia|split; [cbn; lia|split; [exact flip_bijective|exact split_mix_ok]]]|]. split.
  { split; [lia|]. split; [vm_compute; discriminate|]. split; [reflexivity|].
    assert (H : (size (alphabet (updated demo)) <=? 254)%nat = true) by (vm_compute; reflexivity).
    apply Nat.leb_le, H. }
  split. { repeat constructor; try (apply Hk; repeat constructor); try reflexivity. }
  split; [intros H; discriminate H|].
  split. { intros P E. injection E as <-. cbn. lia. }
  split.
  { split; [lia|]. split; [vm_compute; discriminate|]. split; [reflexivity|].
    assert (H : (size (alphabet (hupdated hdemo)) <=? 254)%nat = true) by (vm_compute; reflexivity).
    apply Nat.leb_le, H. }
  split; [|intros H; discriminate H].
  repeat constructor; try (apply Hk; repeat constructor); try reflexivity.
Qed.
Example demo_runs :
  (let* m := i_new true 4 demo_inst 0 2 in let* r := i_run true 4 demo_inst m demo in Ret (fst r)) =
    Ret [(Saw [0;0;0;0], 1); (Found None, 1); (Saw [0;0;0;0], 2); (Saw [0;0;0;0], 3); (Saw [0;0;0;0], 3);
         (Found (Some [3;1;0;0]), 3)] /\
  (let* m := i_new true 4 demo_inst 0 2 in let* r := i_hrun true 4 demo_inst m hdemo in Ret (fst (fst r))) =
    Ret [Ptr true; Ptr true; Written; Ptr true; Ptr true; Read [1;0;0;0]; Read [1;0;0;0]; Read [0;0;0;0]] /\
  option_map fst (hspec_run 4 (∅, []) hdemo) =
    Some [Ptr true; Ptr true; Written; Ptr true; Ptr true; Read [1;0;0;0]; Read [1;0;0;0]; Read [0;0;0;0]].
Proof. split; [run|]. split; [run|vm_compute; reflexivity]. Qed.
(** 254 bytes used as branches; the 255th throws once. *)
Fixpoint letters (n : nat) (c : N) : list N := match n with O => [] | S n => c :: letters n (c + 1) end.
Definition story : list op :=
  map (fun c => Update [c; 0] (Some [c; 1; 2; 3])) (letters 253 1) ++
  [Update [2; 1; 0] None; Update [254; 0] None; Find [254; 0]; Find [1; 0]; Update [254; 0] (Some [8; 8; 8; 8]); Find [254; 0]].
Example story_valid : i_supported_255 4 demo_inst 0 1 (updated story) /\ size (alphabet (updated story)) = 255%nat /\
  Forall (valid_op 4) story /\ i_no_trap true demo_inst (updated story).
Proof.
  assert (Ha : size (alphabet (updated story)) = 255%nat) by (vm_compute; reflexivity).
  split. { split; [lia|]. split; [vm_compute; discriminate|]. split; [reflexivity|]. rewrite Ha. lia. }
  split; [exact Ha|]. split; [|intros H; discriminate H]. apply Forall_app. split.
  - assert (H : forall n c, 0 < c -> c + N.of_nat n <= 256 ->
      Forall (valid_op 4) (map (fun c => Update [c; 0] (Some [c; 1; 2; 3])) (letters n c))).
    { induction n as [|n IH]; intros c H1 H2; [constructor|]. cbn [letters map]. constructor; [|apply IH; lia].
      split; [|split; reflexivity]. exists [c]. split; [reflexivity|]. constructor; [|constructor]. lia. }
    apply H; lia.
  - repeat constructor; try reflexivity;
      first [exists [2; 1]; split; [reflexivity|]; repeat constructor; fail |
             exists [254]; split; [reflexivity|]; repeat constructor; fail | exists [1]; split; [reflexivity|]; repeat constructor].
Qed.
Example story_told :
  (let* m := i_new true 4 demo_inst 0 2 in let* r := i_try_run true 4 demo_inst m story in Ret (drop 254 (fst r))) =
    Ret [(Caught, 254); (Did (Found None), 254); (Did (Found (Some [1; 1; 2; 3])), 254); (Did (Saw [0; 0; 0; 0]), 255);
         (Did (Found (Some [8; 8; 8; 8])), 255)].
Proof. run. Qed.
(** Plain tries, and a compact trie with room, are not near full. *)
Example demo_not_full : ~ i_near_full demo_inst 0 1 (updated demo) /\
  ~ i_near_full (mkInst (T_plain_fkhash vigna_hasher 33) (Some cs8)) 0 1 (updated demo) /\
  ~ i_near_full (mkInst (T_compact_fkhash std_hashers dp_std 95) None) 0 1 (updated demo).
Proof.
  split; [intros [H _]; vm_compute in H; discriminate H|]. split; [intros []|].
  intros [_ H]. vm_compute in H. discriminate H.
Qed.

(** ** The reservation is needed *)
(** A Hasher that swaps the halves of its argument: every child starts its search at the slot of its parent. *)
Definition swap (b x : N) : N := if b <=? 8 then x else (x mod 2 ^ 8) * 2 ^ (b - 8) + x / 2 ^ 8.
Definition unswap (b y : N) : N := if b <=? 8 then y else (y mod 2 ^ (b - 8)) * 2 ^ 8 + y / 2 ^ (b - 8).
Definition swap_hasher : bij_hasher :=
  BijHasher N 0 (fun bits => Ret bits) (fun b x => Ret (swap b x)) (fun b y => Ret (unswap b y)).
Lemma swap_bijective : bijective swap_hasher.
Proof.
  intros b Hb. exists b. split; [reflexivity|]. intros x Hx. exists (swap b x). split; [reflexivity|].
  cbn. unfold swap, unswap. destruct (N.leb_spec b 8) as [H8|H8]; [auto|].
  assert (H2 : 2 ^ b = 2 ^ 8 * 2 ^ (b - 8)) by (rewrite <- N.pow_add_r; f_equal; lia).
  pose proof (pow2_pos (b - 8)) as Hp. assert (Hlo : x mod 2 ^ 8 < 2 ^ 8) by (apply N.mod_lt; discriminate).
  assert (Hhi : x / 2 ^ 8 < 2 ^ (b - 8)) by (apply N.div_lt_upper_bound; [discriminate|]; rewrite <- H2; exact Hx).
  split.
  - rewrite H2. assert (x mod 2 ^ 8 + 1 <= 2 ^ 8) as Hle by lia.
    apply (N.mul_le_mono_r _ _ (2 ^ (b - 8))) in Hle. rewrite N.mul_add_distr_r in Hle. lia.
  - f_equal. rewrite (N.add_comm (x mod 2 ^ 8 * _) (x / 2 ^ 8)), N.mod_add, N.mod_small, N.div_add, (N.div_small (x / 2 ^ 8)) by lia.
    rewrite N.add_0_l, N.mul_comm. symmetry. apply N.div_mod. discriminate.
Qed.
(** An AuxCht with load factor 1, and two keys that need 700 step nodes, each displaced by one slot. *)
Definition chain_inst : inst :=
  mkInst (T_compact_bonsai (TrieHashers swap_hasher split_mix_hasher vigna_hasher) (mkDP 1 7 1 80) 90) (Some cs8).
Definition chain : list op := [Update (repeat 97 700 ++ [98; 0]) None; Update (repeat 97 700 ++ [99; 0]) None].
Theorem C46_reservation_needed : exists i vs cb e ops m0, valid_inst i /\ i_supported vs i cb e (updated ops) /\
  Forall (valid_op vs) ops /\ i_no_trap false i (updated ops) /\
  i_new false vs i cb (2 ^ e) = Ret m0 /\ i_run false vs i m0 ops = AssertFail.
Proof.
  exists chain_inst, 4%nat, 0, 0, chain.
  assert (V : valid_inst chain_inst).
  { split; [cbn; lia|]. split; [cbn; lia|]. split; [exact swap_bijective|exact split_mix_ok]. }
  assert (S : i_supported 4 chain_inst 0 0 (updated chain)).
  { split; [lia|]. split; [vm_compute; discriminate|]. split; [vm_compute; reflexivity|].
    assert (H : (size (alphabet (updated chain)) <=? 254)%nat = true) by (vm_compute; reflexivity). apply Nat.leb_le, H. }
  assert (F : Forall (valid_op 4) chain).
  { assert (Hk : forall c, 0 < c < 256 -> valid_key (repeat 97 700 ++ [c; 0])).
    { intros c Hc. exists (repeat 97 700 ++ [c]). split; [rewrite <- app_assoc; reflexivity|].
      apply Forall_app. split; [apply List.Forall_forall; intros x Hx; apply repeat_spec in Hx as ->; lia|repeat constructor; apply Hc]. }
    repeat constructor; try (apply Hk; lia); try reflexivity. }
  assert (T : i_no_trap false chain_inst (updated chain)) by (intros H; discriminate H).
  destruct (i_run_ok false 4 chain_inst 0 0 chain V S F T) as (m0 & E & _). exists m0.
  split; [exact V|]. split; [exact S|]. split; [exact F|]. split; [exact T|]. split; [exact E|].
  assert (H : (let* m := i_new false 4 chain_inst 0 1 in let* r := i_run false 4 chain_inst m chain in Ret (fst r)) = AssertFail) by run.
  change (2 ^ 0) with 1 in E. rewrite E in H. rewrite bind_ret in H.
  destruct (i_run false 4 chain_inst m0 chain); cbn in H; congruence.
Qed.

(** One query for all theorems of this file. *)
Definition inst_props := (@C46_dictionary, @C46_no_reservation, @C46_agree, @C46_pointers, @C46_one_throw, @C09_debug_stops, @C46_bounds, @C46_aliases, @C46_reservation_needed).
Print Assumptions inst_props.
