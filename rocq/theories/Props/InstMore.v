(** C01, C12, C15, C44 and C45 for every instantiation of map<Trie, NLM> (part of C46). *)
From Verif.Proofs Require Import InstP InstMoreP ProgP ReachP SpecP TryP FastP.
From Verif.Props Require Export InstMoreSpec.
Local Open Scope N_scope.

(** After any history, find returns the value last written to the key (C01, C04). *)
Theorem C46_find : forall dbg vs i cb e ops m k, valid_inst i -> i_supported vs i cb e (updated ops) ->
  Forall (valid_op vs) ops -> i_no_trap dbg i (updated ops) -> i_reaches dbg vs i cb e ops m ->
  valid_key k -> N.of_nat (length k) < 2 ^ 64 ->
  i_find_value dbg vs i m k = Ret (value_after vs k None ops).
Proof. exact i_find_after. Qed.

(** Two histories that leave the same values, on any two instantiations with any parameters: the maps cannot be told
    apart by find and size(), whatever the order, repetitions and intermediate values (C12, C07, C08). *)
Theorem C46_same_contents : forall dbg dbg' vs i i' cb cb' e e' ops ops' m m', valid_inst i -> valid_inst i' ->
  i_supported vs i cb e (updated ops) -> i_supported vs i' cb' e' (updated ops') ->
  Forall (valid_op vs) ops -> Forall (valid_op vs) ops' -> i_no_trap dbg i (updated ops) -> i_no_trap dbg' i' (updated ops') ->
  i_reaches dbg vs i cb e ops m -> i_reaches dbg' vs i' cb' e' ops' m' ->
  (forall k, value_after vs k None ops = value_after vs k None ops') ->
  i_size dbg vs i m = i_size dbg' vs i' m' /\
  forall k, valid_key k -> N.of_nat (length k) < 2 ^ 64 -> i_find_value dbg vs i m k = i_find_value dbg' vs i' m' k.
Proof.
  intros dbg dbg' vs i i' cb cb' e e' ops ops' m m' V V' Hs Hs' Hv Hv' Hn Hn' Hr Hr' Heq. split.
  - rewrite (proj1 (i_bounds dbg vs i cb e ops m V Hs Hv Hn Hr)), (proj1 (i_bounds dbg' vs i' cb' e' ops' m' V' Hs' Hv' Hn' Hr')).
    do 2 f_equal. apply map_eq. intros k. rewrite !final_value. apply Heq.
  - intros k Hk Hl. rewrite (i_find_after dbg vs i cb e ops m k V Hs Hv Hn Hr Hk Hl).
    rewrite (i_find_after dbg' vs i' cb' e' ops' m' k V' Hs' Hv' Hn' Hr' Hk Hl). f_equal. apply Heq.
Qed.

(** The first update of a default-constructed map is that of map(0, 32) (C15). *)
Theorem C46_default : forall dbg vs i k, valid_inst i -> (1 <= vs)%nat ->
  i_update dbg vs i (map_default _ _) k = (let* m := i_new dbg vs i 0 32 in i_update dbg vs i m k).
Proof.
  intros dbg vs i k Hvi Hvs.
  assert (Hsup : i_supported vs i 0 5 []).
  { split; [exact Hvs|]. split; [vm_compute; discriminate|]. split; [|vm_compute; lia].
    assert (Hn0 : nodes_for 5 [] = 0) by (vm_compute; reflexivity). rewrite Hn0.
    apply N.lt_le_trans with (2 ^ 49 * 1 / 100); [reflexivity|]. apply N.div_le_mono; [lia|]. apply N.mul_le_mono_l, (proj1 Hvi). }
  destruct (new_empty dbg vs i Hvi 0 5 Hsup) as (m0 & E & Hr & Hz). change (2 ^ 5) with 32 in E. rewrite E, bind_ret.
  apply (default_update_gen dbg _ _ m0 k (OwnP.i_default_size dbg i) E Hr Hz).
Qed.

(** If update(k) throws on a map reached by a history on at most 255 bytes: the key was not there, size() and the
    result of every find are as before the call, and the same call again returns a pointer to a zero value, counts
    the key and changes no other key (C44). *)
Theorem C46_strong_guarantee : forall dbg vs i cb e ops m k x m', valid_inst i ->
  i_supported_255 vs i cb e (updated ops ++ [k]) -> Forall (valid_op vs) ops -> i_no_trap dbg i (updated ops ++ [k]) ->
  i_try_reaches dbg vs i cb e ops m -> valid_key k -> N.of_nat (length k) + N.of_nat vs < 2 ^ 64 ->
  i_update dbg vs i m k = Ret (UThrow x, m') ->
  size (alphabet (updated ops ++ [k])) = 255%nat /\ i_size dbg vs i m' = i_size dbg vs i m /\
  (forall k', valid_key k' -> N.of_nat (length k') < 2 ^ 64 -> i_find_value dbg vs i m' k' = i_find_value dbg vs i m k') /\
  i_find_value dbg vs i m k = Ret None /\
  i_yields i cb e (updated ops ++ [k]) (i_update dbg vs i m' k) (fun '(r, m'') => exists p, r = UPtr (Some p) /\
    map_read _ _ m'' p = Ret (replicate vs 0) /\ i_size dbg vs i m'' = i_size dbg vs i m + 1 /\
    i_find_value dbg vs i m'' k = Ret (Some (replicate vs 0)) /\
    (forall k', k' <> k -> valid_key k' -> N.of_nat (length k') < 2 ^ 64 ->
       i_find_value dbg vs i m'' k' = i_find_value dbg vs i m k')).
Proof. exact i_throw_inv. Qed.

(** Keys no longer than lambda: the trie has one node per key; and a capacity reserved for the nodes the keys need
    is never enlarged (C45). *)
Theorem C46_one_node_per_key : forall dbg vs i cb e ops m, valid_inst i -> i_supported vs i cb e (updated ops) ->
  Forall (valid_op vs) ops -> i_no_trap dbg i (updated ops) -> i_reaches dbg vs i cb e ops m ->
  Forall (fun k => N.of_nat (length k) <= 2 ^ e) (updated ops) ->
  i_nodes dbg vs i m = i_size dbg vs i m.
Proof.
  intros dbg vs i cb e ops m Hvi Hsup Hv Hnt Hr Hk.
  destruct (i_bounds dbg vs i cb e ops m Hvi Hsup Hv Hnt Hr) as (Hs & [H1 H2] & _).
  apply N.le_antisymm; [|exact H1]. etransitivity; [exact H2|]. rewrite Hs. unfold nodes_for.
  rewrite CountP.nb_short.
  - rewrite <- (size_dom (final vs ops)), dom_final. reflexivity.
  - intros k Hin. apply elem_of_list_to_set in Hin. rewrite List.Forall_forall in Hk. apply Hk, elem_of_list_In, Hin.
Qed.
Theorem C46_reserved : forall dbg vs i cb e ops m, valid_inst i -> i_supported vs i cb e (updated ops) ->
  Forall (valid_op vs) ops -> i_no_trap dbg i (updated ops) -> i_reaches dbg vs i cb e ops m ->
  100 * (nodes_for e (updated ops) + 8) < i_mf i * 2 ^ N.max 16 cb ->
  i_capa_size dbg vs i m = 2 ^ N.max 16 cb.
Proof.
  intros dbg vs i cb e ops m Hvi Hsup Hv Hnt Hr Hroom.
  destruct (i_bounds dbg vs i cb e ops m Hvi Hsup Hv Hnt Hr) as (_ & [_ H2] & b & E & Hb & _ & _ & _ & _ & [->|H]); [exact E|].
  destruct (N.eq_dec b (N.max 16 cb)) as [->|Hne]; [exact E|exfalso].
  assert (2 * 2 ^ N.max 16 cb <= 2 ^ b) by (rewrite <- BaseP.pow2_succ; apply BaseP.pow2_le; lia).
  assert (i_mf i * (2 * 2 ^ N.max 16 cb) <= i_mf i * 2 ^ b) by (apply N.mul_le_mono_l; assumption).
  clear -H H2 H1 Hroom. lia.
Qed.

(** ** The hypotheses are met *)
(** Instantiations that are no aliases (load factors 50 and 70), two histories in different orders, with different
    intermediate values. *)
Definition mi : inst := mkInst (T_plain_bonsai vigna_hasher 50) None.
Definition mi' : inst := mkInst (T_plain_fkhash vigna_hasher 70) (Some cs8).
Definition h1 : list op := [Update [97; 98; 0] (Some [1]); Update [97; 99; 0] (Some [2]); Update [0] None; Update [97; 98; 0] (Some [3])].
Definition h2 : list op := [Update [0] (Some [9]); Update [97; 99; 0] (Some [2]); Find [97; 0]; Update [97; 98; 0] (Some [3]); Update [0] (Some [0])].
Example h_valid : valid_inst mi /\ valid_inst mi' /\ i_supported 1 mi 0 1 (updated h1) /\ i_supported 1 mi' 0 5 (updated h2) /\
  Forall (valid_op 1) h1 /\ Forall (valid_op 1) h2 /\ i_no_trap true mi (updated h1) /\ i_no_trap false mi' (updated h2) /\
  (forall k, value_after 1 k None h1 = value_after 1 k None h2) /\
  Forall (fun k => N.of_nat (length k) <= 2 ^ 5) (updated h2) /\
  100 * (nodes_for 5 (updated h2) + 8) < i_mf mi' * 2 ^ N.max 16 0.
Proof.
  assert (Hk : forall s, Forall (fun c => 0 < c < 256) s -> valid_key (s ++ [0])) by (intros s Hs; exists s; auto).
  assert (K1 : valid_key [97; 98; 0]) by (apply (Hk [97; 98]); repeat constructor).
  assert (K2 : valid_key [97; 99; 0]) by (apply (Hk [97; 99]); repeat constructor).
  assert (K3 : valid_key [0]) by (apply (Hk []); repeat constructor).
  assert (K4 : valid_key [97; 0]) by (apply (Hk [97]); repeat constructor).
  split. { split; [cbn; lia|]. split; [cbn; lia|exact I]. }
  split. { split; [cbn; lia|]. split; [cbn; lia|exact I]. }
  split. { split; [lia|]. split; [vm_compute; discriminate|]. split; [vm_compute; reflexivity|]. apply Nat.leb_le. vm_compute. reflexivity. }
  split. { split; [lia|]. split; [vm_compute; discriminate|]. split; [vm_compute; reflexivity|]. apply Nat.leb_le. vm_compute. reflexivity. }
  split. { repeat constructor; assumption. } split. { repeat constructor; assumption. }
  split; [intros H; discriminate H|]. split; [intros H; discriminate H|].
  split. { intros k. unfold h1, h2. cbn [value_after]. repeat (destruct (decide _); subst; try discriminate); reflexivity. }
  split; [|vm_compute; reflexivity].
  repeat constructor; vm_compute; discriminate.
Qed.
Example h_runs :
  (let* m := i_new true 1 mi 0 2 in let* r := i_run true 1 mi m h1 in
   let* v := i_find_value true 1 mi (snd r) [97; 98; 0] in let* w := i_find_value true 1 mi (snd r) [0] in Ret (v, w, i_size true 1 mi (snd r))) =
  Ret (Some [3], Some [0], 3) /\
  (let* m := i_new false 1 mi' 0 32 in let* r := i_run false 1 mi' m h2 in
   let* v := i_find_value false 1 mi' (snd r) [97; 98; 0] in let* w := i_find_value false 1 mi' (snd r) [0] in
   Ret (v, w, i_size false 1 mi' (snd r), i_nodes false 1 mi' (snd r), i_capa_size false 1 mi' (snd r))) =
  Ret (Some [3], Some [0], 3, 3, 2 ^ 16).
Proof. split; run. Qed.
(** 254 keys that branch on 254 different bytes; then the 255th byte throws (an FK trie with load factor 33). *)
Definition ti : inst := mkInst (T_plain_fkhash vigna_hasher 33) (Some cs8).
Fixpoint letters (n : nat) (c : N) : list N := match n with O => [] | S n => c :: letters n (c + 1) end.
Definition before : list op := map (fun c => Update [c; 0] (Some [c])) (letters 253 1) ++ [Update [2; 1; 0] None].
Example throw_valid : valid_inst ti /\ i_supported_255 1 ti 0 0 (updated before ++ [[254; 0]]) /\ Forall (valid_op 1) before /\
  i_no_trap false ti (updated before ++ [[254; 0]]) /\ valid_key [254; 0] /\
  exists m m', i_try_reaches false 1 ti 0 0 before m /\ i_update false 1 ti m [254; 0] = Ret (UThrow ExCodes, m').
Proof.
  split; [split; [cbn; lia|split; [cbn; lia|exact I]]|].
  split. { split; [lia|]. split; [vm_compute; discriminate|]. split; [vm_compute; reflexivity|]. apply Nat.leb_le. vm_compute. reflexivity. }
  assert (Hl : forall n c, 0 < c -> c + N.of_nat n <= 256 -> Forall (valid_op 1) (map (fun c => Update [c; 0] (Some [c])) (letters n c))).
  { induction n as [|n IH]; intros c H1 H2; [constructor|]. cbn [letters map]. constructor; [|apply IH; lia].
    split; [|split; reflexivity]. exists [c]. split; [reflexivity|]. constructor; [|constructor]. lia. }
  split. { apply Forall_app. split; [apply Hl; lia|]. repeat constructor. exists [2; 1]. split; [reflexivity|repeat constructor]. }
  split; [intros H; discriminate H|]. split. { exists [254]. split; [reflexivity|repeat constructor]. }
  assert (H : (let* m := i_new false 1 ti 0 1 in let* r := i_try_run false 1 ti m before in
               let* u := i_update false 1 ti (snd r) [254; 0] in
               Ret (match u with (UThrow ExCodes, _) => true | _ => false end)) = Ret true) by run.
  unfold i_try_reaches. change (2 ^ 0) with 1.
  destruct (i_new false 1 ti 0 1) as [m0| | | |]; try discriminate H. cbn [bind] in H.
  destruct (i_try_run false 1 ti m0 before) as [[xs m]| | | |] eqn:Er; try discriminate H. cbn [bind snd] in H.
  destruct (i_update false 1 ti m [254; 0]) as [[[p|x] m']| | | |] eqn:Eu; try discriminate H.
  destruct x; try discriminate H. exists m, m'. split; [exists m0, xs; auto|exact Eu].
Qed.

Definition more_props := (@C46_find, @C46_same_contents, @C46_default, @C46_strong_guarantee, @C46_one_node_per_key, @C46_reserved).
Print Assumptions more_props.
