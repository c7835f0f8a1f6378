(** C10 and C14 for every instantiation of map<Trie, NLM> (LimitProps.v has them for the aliases). *)
From Verif.Proofs Require Import SpecP InstNulP ReachP FastP.
From Verif.Props Require Export InstMoreSpec.
Local Open Scope N_scope.

(** Whether the template argument NLM is one of the two compact label stores. *)
Definition chunked (i : inst) : bool := match i_l i with Some _ => true | None => false end.

(** A valid key [s ++ [0]] followed by more bytes [z], of which the last is NUL again; any reachable map.  Compact stores:
    find gives the pointer of the valid key, or says that the key is absent; surely the first, if no other key starts with
    the same letters, or if the extra bytes start with NUL. *)
Theorem C10_every_compact : forall dbg vs i cb e ops m s z, valid_inst i -> chunked i = true ->
  i_supported vs i cb e (updated ops) -> Forall (valid_op vs) ops -> i_no_trap dbg i (updated ops) ->
  i_reaches dbg vs i cb e ops m ->
  valid_key (s ++ [0]) -> Forall (fun c => c < 256) z -> List.last z 1 = 0 -> N.of_nat (length (s ++ [0] ++ z)) < 2 ^ 64 ->
  ((forall k', In k' (updated ops) -> s `prefix_of` k' -> k' = s ++ [0]) \/ List.hd 1 z = 0 ->
     i_find dbg vs i m (s ++ [0] ++ z) = i_find dbg vs i m (s ++ [0])) /\
  (i_find dbg vs i m (s ++ [0] ++ z) = i_find dbg vs i m (s ++ [0]) \/ i_find dbg vs i m (s ++ [0] ++ z) = Ret None).
Proof.
  intros dbg vs i cb e ops m s z Hvi Ha Hsup Hv Hnt Hr Hk Hb Hz Hlen. rewrite !(app_assoc s [0] z) in *.
  destruct (nul_pack dbg vs i cb e _ Hvi Hsup) as [K HK].
  destruct (i_compact_past dbg vs i cb e _ K ops m HK Hvi Hsup ltac:(lia) Hv Hnt Hr s z Ha Hk Hb Hz Hlen) as [H1 H2]. split; assumption.
Qed.
(** Plain stores: the extra bytes are compared with the bytes of the value of the key. *)
Theorem C10_every_plain : forall dbg vs i cb e ops m k z v, valid_inst i -> chunked i = false ->
  i_supported vs i cb e (updated ops) -> Forall (valid_op vs) ops -> i_no_trap dbg i (updated ops) ->
  i_reaches dbg vs i cb e ops m ->
  valid_key k -> Forall (fun c => c < 256) z -> List.last z 1 = 0 -> N.of_nat (length (k ++ z)) < 2 ^ 64 ->
  value_after vs k None ops = Some v ->
  (z `prefix_of` v -> exists p, i_find dbg vs i m (k ++ z) = Ret (Some p) /\ map_read _ _ m p = UB) /\
  (v `prefix_of` z -> v <> z -> i_find dbg vs i m (k ++ z) = UB) /\
  (~ z `prefix_of` v -> ~ v `prefix_of` z -> i_find dbg vs i m (k ++ z) = Ret None).
Proof.
  intros dbg vs i cb e ops m k z v Hvi Ha Hsup Hv Hnt Hr Hk Hb Hz Hlen Ev.
  destruct (nul_pack dbg vs i cb e _ Hvi Hsup) as [K HK].
  pose proof (i_plain_past dbg vs i cb e _ K ops m HK Hvi Hsup ltac:(lia) Hv Hnt Hr k z Ha Hk Hb Hz Hlen) as H.
  rewrite Ev in H. exact H.
Qed.
(** A key that is not in the map: find says so whatever follows it. *)
Theorem C10_every_absent : forall dbg vs i cb e ops m k z, valid_inst i ->
  i_supported vs i cb e (updated ops) -> Forall (valid_op vs) ops -> i_no_trap dbg i (updated ops) ->
  i_reaches dbg vs i cb e ops m ->
  valid_key k -> Forall (fun c => c < 256) z -> List.last z 1 = 0 -> N.of_nat (length (k ++ z)) < 2 ^ 64 ->
  ~ In k (updated ops) -> i_find dbg vs i m (k ++ z) = Ret None.
Proof.
  intros dbg vs i cb e ops m k z Hvi Hsup Hv Hnt Hr Hk Hb Hz Hlen Hn.
  destruct (nul_pack dbg vs i cb e _ Hvi Hsup) as [K HK].
  pose proof (i_find_past dbg vs i cb e _ K ops m HK Hvi Hsup ltac:(lia) Hv Hnt Hr k Hk) as H.
  apply (value_after_none vs) in Hn. rewrite Hn in H. apply H; [exact Hb| |exact Hlen].
  destruct z; [discriminate Hz|exact Hz].
Qed.
(** Updating [k ++ z] when [k] is the only key; whenever find takes the byte range for a key; and as the first key of a map. *)
Theorem C10_every_not_counted : forall dbg vs i cb e ops m k z, valid_inst i ->
  i_supported vs i cb e (updated ops) -> Forall (valid_op vs) ops -> i_no_trap dbg i (updated ops) ->
  i_reaches dbg vs i cb e ops m -> updated ops <> [] -> (forall k', In k' (updated ops) -> k' = k) -> List.last z 1 = 0 ->
  if chunked i then exists p, i_find dbg vs i m k = Ret (Some p) /\ i_update dbg vs i m (k ++ z) = Ret (UPtr (Some p), m)
  else (forall v, value_after vs k None ops = Some v -> z `prefix_of` v ->
    exists p, i_find dbg vs i m (k ++ z) = Ret (Some p) /\ i_update dbg vs i m (k ++ z) = Ret (UPtr (Some p), m) /\
      map_read _ _ m p = UB).
Proof. exact i_nul_alone. Qed.
Theorem C10_every_update_as_find : forall dbg vs i cb e ops m k p, valid_inst i ->
  i_supported vs i cb e (updated ops) -> Forall (valid_op vs) ops -> i_no_trap dbg i (updated ops) ->
  i_reaches dbg vs i cb e ops m -> i_find dbg vs i m k = Ret (Some p) ->
  i_yields i cb e (updated ops) (i_update dbg vs i m k) (fun '(r, m') => r = UPtr (Some p) /\
    i_size dbg vs i m' = i_size dbg vs i m /\ m_nlm _ _ m' = m_nlm _ _ m /\ i_nodes dbg vs i m' = i_nodes dbg vs i m /\
    forall k', valid_key k' -> N.of_nat (length k') < 2 ^ 64 -> i_find_value dbg vs i m' k' = i_find_value dbg vs i m k').
Proof. exact i_nul_update. Qed.
Theorem C10_every_first_key : forall dbg vs i cb e k z w, valid_inst i -> i_supported vs i cb e [k ++ z] ->
  N.of_nat (length (k ++ z)) + N.of_nat vs < 2 ^ 64 -> valid_key k -> List.last z 1 = 0 -> length w = vs ->
  exists m0 m1 m2 p, i_new dbg vs i cb (2 ^ e) = Ret m0 /\
    i_update dbg vs i m0 (k ++ z) = Ret (UPtr (Some p), m1) /\ i_size dbg vs i m1 = 1 /\
    map_write _ _ m1 p w = Ret m2 /\
    if chunked i then i_find dbg vs i m2 k = UB /\ i_update dbg vs i m2 k = UB
    else exists q, i_find dbg vs i m2 k = Ret (Some q) /\ i_update dbg vs i m2 k = Ret (UPtr (Some q), m2) /\
      map_read _ _ m2 q = Ret (firstn vs (z ++ w)).
Proof. exact i_nul_first. Qed.

(** In a build with assertions, on every map over plain_fkhash_trie, whatever MaxFactor, Hasher and label store: update of
    the empty string fails if the map holds a key and the empty string is not one of them (C14); the other tries and the
    build without assertions have no such case ([i_traps] is false for them, so [i_no_trap] holds of all keys). *)
Theorem C14_every_debug_empty_string : forall vs i cb e ops m, valid_inst i ->
  (exists H mf, i_t i = T_plain_fkhash H mf) ->
  i_supported vs i cb e (updated ops ++ [[0]]) -> Forall (valid_op vs) ops -> ~ In [0] (updated ops) -> updated ops <> [] ->
  i_reaches true vs i cb e ops m -> i_update true vs i m [0] = AssertFail.
Proof.
  intros vs i cb e ops m Hvi (H & mf & E). apply i_update_trap; [exact Hvi|]. unfold i_traps. rewrite E. reflexivity.
Qed.
Theorem C14_every_other : forall dbg i, i_traps dbg i = true <-> dbg = true /\ exists H mf, i_t i = T_plain_fkhash H mf.
Proof.
  intros dbg [[H mf|H P mf|H mf|H P mf] l]; unfold i_traps; cbn [i_t]; split.
  1,3,7: discriminate.
  - intros (_ & ? & ? & E). discriminate E.
  - intros (_ & ? & ? & E). discriminate E.
  - intros ->. eauto.
  - intros (-> & _). reflexivity.
  - intros (_ & ? & ? & E). discriminate E.
Qed.

(** ** The hypotheses are met *)
(** Instantiations that are no aliases: a plain trie with load factor 50 over a compact store and over a plain one. *)
Definition nc : inst := mkInst (T_plain_bonsai vigna_hasher 50) (Some cs8).
Definition np : inst := mkInst (T_plain_fkhash vigna_hasher 70) None.
Definition nops : list op := [Update [97; 0] (Some [5; 0]); Update [97; 98; 0] (Some [0; 0]); Update [98; 0] None].
Example nul_valid : valid_inst nc /\ valid_inst np /\ i_supported 2 nc 0 5 (updated nops) /\
  i_supported 2 np 0 1 (updated nops ++ [[0]]) /\ i_supported 2 np 0 5 [[97; 0] ++ [98; 0]] /\
  i_supported 2 nc 0 5 [[97; 0] ++ [98; 0]] /\ Forall (valid_op 2) nops /\ ~ In [0] (updated nops).
Proof.
  assert (Hk : forall s, Forall (fun c => 0 < c < 256) s -> valid_key (s ++ [0])) by (intros s Hs; exists s; auto).
  split. { split; [cbn; lia|]. split; [cbn; lia|exact I]. }
  split. { split; [cbn; lia|]. split; [cbn; lia|exact I]. }
  do 4 (split; [split; [lia|]; split; [vm_compute; discriminate|]; split; [vm_compute; reflexivity|]; apply Nat.leb_le; vm_compute; reflexivity|]).
  split; [|intros [H|[H|[H|[]]]]; discriminate H].
  repeat constructor; [apply (Hk [97])|apply (Hk [97; 98])|apply (Hk [98])]; repeat constructor.
Qed.
(** find "a\0\0\0" and "b\0c\0" on the compact store; "ab\0\0\0" on the plain one; and the empty string with assertions. *)
Example nul_runs :
  (let* m := i_new true 2 nc 0 32 in let* r := i_run true 2 nc m nops in
   let* p := i_find_value true 2 nc (snd r) [97; 0; 0; 0] in let* q := i_find_value true 2 nc (snd r) [98; 0; 99; 0] in
   Ret (p, q)) = Ret (Some [5; 0], Some [0; 0]) /\
  (let* m := i_new false 2 np 0 2 in let* r := i_run false 2 np m nops in
   let* p := i_find false 2 np (snd r) [97; 98; 0; 0; 0] in let* q := i_find false 2 np (snd r) [97; 0; 0] in
   Ret (if p then true else false, if q then true else false)) = Ret (true, false) /\
  (let* m := i_new false 2 np 0 2 in let* r := i_run false 2 np m nops in
   i_find_value false 2 np (snd r) [97; 98; 0; 0; 0]) = UB /\
  (let* m := i_new true 2 np 0 2 in let* r := i_run true 2 np m nops in
   let* u := i_update true 2 np (snd r) [0] in Ret (i_size true 2 np (snd u))) = AssertFail.
Proof. split; [run|]. split; [run|]. split; run. Qed.

Definition nul_props := (@C10_every_compact, @C10_every_plain, @C10_every_absent, @C10_every_not_counted,
  @C10_every_update_as_find, @C10_every_first_key, @C14_every_debug_empty_string, @C14_every_other).
Print Assumptions nul_props.
