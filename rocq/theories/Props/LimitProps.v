(** Limits of the maps, shown as theorems about what goes wrong outside them: C09 (second half),
    C10, C11 (second half), C14, C16. *)
From Verif.Proofs Require Import LimitP NulP PresentP FastP.
From Verif.Props Require Import MapProps.
Local Open Scope N_scope.

(** ** Sessions *)
(** Calls of a user who keeps going after an exception of update: every call with what it shows and
    the size() after it.  [Pointer]/[Null]: what update or find returned; [Threw]: update threw. *)
Inductive answer := Pointer | Null | Value (v : list N) | Stored | Threw.
Fixpoint session (dbg : bool) (vs : nat) (a : alias) (m : a_map dbg vs a) (hs : list (option ptr)) (calls : list hop)
  : outcome (list (answer * N)) :=
  let ptr_answer (o : option ptr) := match o with Some _ => Pointer | None => Null end in
  match calls with
  | [] => Ret []
  | HUpdate k :: calls =>
      let* r := a_update dbg vs a m k in
      match r with
      | (UPtr o, m) =>
          let* xs := session dbg vs a m (hs ++ [o]) calls in Ret ((ptr_answer o, a_size dbg vs a m) :: xs)
      | (UThrow _, m) =>
          let* xs := session dbg vs a m (hs ++ [None]) calls in Ret ((Threw, a_size dbg vs a m) :: xs)
      end
  | HFind k :: calls =>
      let* o := a_find dbg vs a m k in
      let* xs := session dbg vs a m (hs ++ [o]) calls in Ret ((ptr_answer o, a_size dbg vs a m) :: xs)
  | HRead i :: calls =>
      match hs !! i with
      | Some (Some p) =>
          let* v := a_read dbg vs a m p in
          let* xs := session dbg vs a m hs calls in Ret ((Value v, a_size dbg vs a m) :: xs)
      | _ => UB
      end
  | HWrite i w :: calls =>
      match hs !! i with
      | Some (Some p) =>
          let* m := a_write dbg vs a m p w in
          let* xs := session dbg vs a m hs calls in Ret ((Stored, a_size dbg vs a m) :: xs)
      | _ => UB
      end
  end.
(** The session on map(0, 32). *)
Definition answers (dbg : bool) (vs : nat) (a : alias) (calls : list hop) : outcome (list (answer * N)) :=
  let* m := a_new dbg vs a 0 32 in session dbg vs a m [] calls.
Fixpoint count_up (n : nat) (c : N) : list N := match n with O => [] | S n => c :: count_up n (c + 1) end.

(** [a_new_fast] (FastP.v) is equal to [a_new] and quicker to evaluate. *)
Lemma answers_run dbg vs a calls : answers dbg vs a calls = let* m := a_new_fast dbg vs a 0 32 in session dbg vs a m [] calls.
Proof. unfold answers. rewrite a_new_fast_ok. reflexivity. Qed.

(** ** C09 (second half) The 255th branching byte throws once, the 256th is lost *)
(** 254 one-letter keys go in; the 255th throws and is not counted; the same call again succeeds; a key that
    needs a 256th code is counted and gets a pointer, but find does not know it. *)
Theorem C09_code_exhaustion : forall a,
  answers false 4 a
    (map (fun c => HUpdate [c; 0]) (count_up 254 1) ++
     [HUpdate [255; 0]; HFind [255; 0]; HUpdate [255; 0]; HFind [255; 0]; HUpdate [2; 1; 0]; HFind [2; 1; 0]])
  = Ret (map (fun c => (Pointer, c)) (count_up 254 1) ++
     [(Threw, 254); (Null, 254); (Pointer, 255); (Pointer, 255); (Pointer, 256); (Null, 256)]).
Proof. intros a. rewrite answers_run. revert a. intros [|[]|[]| |[]|[]]; run. Qed.

(** Once more: the next new key through the byte gives it the code of NUL.  From then on find knows the keys with it,
    so the lost key is counted a second time; and on the compact label stores [5; 9; 0] and [5; 9; 1; 0] have one value:
    update returns the pointer of the other key and does not count the new one. *)
Definition exhausted : list hop := map (fun c => HUpdate [c; 0]) (count_up 254 1) ++ [HUpdate [255; 0]; HUpdate [255; 0]].
Definition answers_after (n : nat) (dbg : bool) (vs : nat) (a : alias) (calls : list hop) : outcome (list (answer * N)) :=
  let* xs := answers dbg vs a calls in Ret (skipn n xs).
Theorem C09_code_reuse : forall a,
  answers_after 256 false 4 a (exhausted ++ [HUpdate [2; 1; 0]; HFind [2; 1; 0]; HUpdate [3; 1; 0]; HFind [3; 1; 0]; HUpdate [2; 1; 0]])
  = Ret [(Pointer, 256); (Null, 256); (Pointer, 257); (Pointer, 257); (Pointer, 258)] /\
  (compact_store a = true ->
   answers_after 258 false 4 a (exhausted ++ [HUpdate [2; 1; 0]; HUpdate [3; 1; 0]; HUpdate [5; 9; 9; 0]; HUpdate [5; 9; 0];
      HWrite 259 [1; 2; 3; 4]; HFind [5; 9; 1; 0]; HUpdate [5; 9; 1; 0]; HRead 261; HWrite 261 [5; 6; 7; 8]; HRead 259])
   = Ret [(Pointer, 258); (Pointer, 259); (Stored, 259); (Pointer, 259); (Pointer, 259); (Value [1; 2; 3; 4], 259); (Stored, 259);
          (Value [5; 6; 7; 8], 259)]).
Proof.
  intros a. unfold answers_after. rewrite !answers_run. split; [|intros Hc; revert a Hc]; [revert a|]; intros [|[]|[]| |[]|[]]; try discriminate 1;
    try intros _; run.
Qed.
(** In a build with assertions the key that needs a 256th code stops the program (C09_debug_stops in InstProps.v). *)
Example C09_debug_example : forall a, a = plain_bonsai_map \/ a = compact_fkhash_map cs8 ->
  answers true 4 a (exhausted ++ [HUpdate [2; 1; 0]]) = AssertFail.
Proof. intros a [->| ->]; rewrite answers_run; run. Qed.

(** ** C10 Keys with embedded NULs *)
(** Neither find nor update rejects a key like "a\0b\0": a valid key [k] followed by more bytes [z], of which the
    last is NUL again.  What happens depends on the label store.
    Compact stores, any reachable map: if no other key that starts with the same letters is stored, or if the
    extra bytes start with a NUL, find(k z) gives the pointer that find(k) gives, although k z was never
    inserted; in the other cases it may also be reported absent. *)
Theorem C10_compact_wrong_value : forall dbg vs a cb e ops m s z, compact_store a = true ->
  supported vs cb e (updated ops) -> Forall (valid_op vs) ops -> no_trap dbg a (updated ops) -> reaches dbg vs a cb e ops m ->
  valid_key (s ++ [0]) -> Forall (fun c => c < 256) z -> List.last z 1 = 0 -> N.of_nat (length (s ++ [0] ++ z)) < 2 ^ 64 ->
  ((forall k', In k' (updated ops) -> s `prefix_of` k' -> k' = s ++ [0]) \/ List.hd 1 z = 0 ->
     a_find dbg vs a m (s ++ [0] ++ z) = a_find dbg vs a m (s ++ [0])) /\
  (a_find dbg vs a m (s ++ [0] ++ z) = a_find dbg vs a m (s ++ [0]) \/ a_find dbg vs a m (s ++ [0] ++ z) = Ret None).
Proof.
  intros dbg vs a cb e ops m s z Ha Hsup Hv Hnt Hr Hk Hb Hz Hlen. rewrite !(app_assoc s [0] z) in *.
  destruct (compact_find_past dbg vs a cb e ops m Hsup Hv Hnt Hr s z Ha Hk Hb Hz Hlen) as [H1 H2]. split; assumption.
Qed.
(** Plain stores, any reachable map: the extra bytes are compared with the bytes of k's value.  If the value
    starts with them, find returns a pointer from which no value can be read; if they run past the end of the
    value, find reads outside of its memory; otherwise the key is absent.  Writing the value of k thus makes
    k z appear and disappear. *)
Theorem C10_plain_reads_value : forall dbg vs a cb e ops m k z v, compact_store a = false ->
  supported vs cb e (updated ops) -> Forall (valid_op vs) ops -> no_trap dbg a (updated ops) -> reaches dbg vs a cb e ops m ->
  valid_key k -> Forall (fun c => c < 256) z -> List.last z 1 = 0 -> N.of_nat (length (k ++ z)) < 2 ^ 64 ->
  value_after vs k None ops = Some v ->
  (z `prefix_of` v -> exists p, a_find dbg vs a m (k ++ z) = Ret (Some p) /\ a_read dbg vs a m p = UB) /\
  (v `prefix_of` z -> v <> z -> a_find dbg vs a m (k ++ z) = UB) /\
  (~ z `prefix_of` v -> ~ v `prefix_of` z -> a_find dbg vs a m (k ++ z) = Ret None).
Proof.
  intros dbg vs a cb e ops m k z v Ha Hsup Hv Hnt Hr Hk Hb Hz Hlen Ev.
  pose proof (plain_find_past dbg vs a cb e ops m Hsup Hv Hnt Hr k z Ha Hk Hb Hz Hlen) as H. rewrite Ev in H. exact H.
Qed.
(** Inserting k z after k, when k is the only key: the map does not change.  On the compact stores the
    user gets the pointer of k; on the plain stores, while k's value starts with z, a pointer from which no
    value can be read. *)
Theorem C10_update_not_counted : forall dbg vs a cb e ops m k z,
  supported vs cb e (updated ops) -> Forall (valid_op vs) ops -> no_trap dbg a (updated ops) ->
  reaches dbg vs a cb e ops m -> updated ops <> [] -> (forall k', In k' (updated ops) -> k' = k) -> List.last z 1 = 0 ->
  if compact_store a then exists p, a_find dbg vs a m k = Ret (Some p) /\ a_update dbg vs a m (k ++ z) = Ret (UPtr (Some p), m)
  else (forall v, value_after vs k None ops = Some v -> z `prefix_of` v ->
    exists p, a_find dbg vs a m (k ++ z) = Ret (Some p) /\ a_update dbg vs a m (k ++ z) = Ret (UPtr (Some p), m) /\ a_read dbg vs a m p = UB).
Proof. exact nul_alone. Qed.
(** In any reachable map: whenever find takes k z (or any other byte range) for a stored key, so does update: it returns
    the pointer find returns, and number of keys, nodes, labels and values stay (the table of an FK-hash trie may grow). *)
Theorem C10_update_as_find : forall dbg vs a cb e ops m k p,
  supported vs cb e (updated ops) -> Forall (valid_op vs) ops -> no_trap dbg a (updated ops) ->
  reaches dbg vs a cb e ops m -> a_find dbg vs a m k = Ret (Some p) ->
  yields a cb e (updated ops) (a_update dbg vs a m k) (fun '(r, m') => r = UPtr (Some p) /\
    a_size dbg vs a m' = a_size dbg vs a m /\ m_nlm _ _ m' = m_nlm _ _ m /\ a_nodes dbg vs a m' = a_nodes dbg vs a m /\
    forall k', valid_key k' -> N.of_nat (length k') < 2 ^ 64 -> find_value dbg vs a m' k' = find_value dbg vs a m k').
Proof. exact nul_update. Qed.
(** k z as the first key of a new map: it is inserted and counted.  Then, on the compact stores, find and
    update of k read past the end of the argument; on the plain stores they return a pointer behind which the
    user reads the extra bytes of the key and the beginning of its value. *)
Theorem C10_first_key : forall dbg vs a cb e k z w, supported vs cb e [k ++ z] -> N.of_nat (length (k ++ z)) + N.of_nat vs < 2 ^ 64 ->
  valid_key k -> List.last z 1 = 0 -> length w = vs ->
  exists m0 m1 m2 p, a_new dbg vs a cb (2 ^ e) = Ret m0 /\
    a_update dbg vs a m0 (k ++ z) = Ret (UPtr (Some p), m1) /\ a_size dbg vs a m1 = 1 /\
    a_write dbg vs a m1 p w = Ret m2 /\
    if compact_store a then a_find dbg vs a m2 k = UB /\ a_update dbg vs a m2 k = UB
    else exists q, a_find dbg vs a m2 k = Ret (Some q) /\ a_update dbg vs a m2 k = Ret (UPtr (Some q), m2) /\
      a_read dbg vs a m2 q = Ret (firstn vs (z ++ w)).
Proof. exact nul_first. Qed.
(** Runs on every alias (default chunk size): "a\0", then "a\0b\0" ... *)
Example C10_compact_demo : forall a, In a [semi_compact_bonsai_map cs16; compact_bonsai_map cs16; semi_compact_fkhash_map cs16; compact_fkhash_map cs16] ->
  answers false 4 a [HUpdate [97; 0]; HWrite 0 [1; 2; 3; 4]; HFind [97; 0; 98; 0]; HRead 1; HUpdate [97; 0; 98; 0]; HRead 2] =
    Ret [(Pointer, 1); (Stored, 1); (Pointer, 1); (Value [1; 2; 3; 4], 1); (Pointer, 1); (Value [1; 2; 3; 4], 1)] /\
  answers false 4 a [HUpdate [97; 0; 98; 0]; HFind [97; 0]] = UB.
Proof. intros a [<-|[<-|[<-|[<-|[]]]]]; rewrite !answers_run; (split; run). Qed.
(** ... and on the plain stores "a\0\0\0" comes and goes with the value of "a\0". *)
Example C10_plain_demo : forall a, compact_store a = false ->
  answers false 4 a [HUpdate [97; 0]; HUpdate [97; 0; 0; 0]; HFind [97; 0; 0; 0]; HWrite 0 [1; 2; 3; 4]; HFind [97; 0; 0; 0]] =
    Ret [(Pointer, 1); (Pointer, 1); (Pointer, 1); (Stored, 1); (Null, 1)] /\
  answers false 4 a [HUpdate [97; 0; 98; 0]; HWrite 0 [1; 2; 3; 4]; HFind [97; 0]; HRead 1] =
    Ret [(Pointer, 1); (Stored, 1); (Pointer, 1); (Value [98; 0; 1; 2], 1)].
Proof. intros [|c|c| |c|c] H; try discriminate H; rewrite !answers_run; (split; run). Qed.
(** The hypotheses of the four theorems for "a\0" and the extra bytes "\0\0" or "b\0". *)
Example C10_hypotheses : valid_key [97; 0] /\ List.last [0; 0] 1 = 0 /\ List.last [98; 0] 1 = 0 /\ List.hd 1 [0; 0] = 0 /\
  supported 4 0 5 [[97; 0; 98; 0]] /\ supported 4 0 5 (updated [Update [97; 0] None]) /\
  value_after 4 [97; 0] None [Update [97; 0] None] = Some [0; 0; 0; 0] /\ [0; 0] `prefix_of` [0; 0; 0; 0].
Proof.
  split; [exists [97]; split; [reflexivity|repeat constructor; reflexivity]|]. split; [reflexivity|]. split; [reflexivity|].
  split; [reflexivity|]. split; [|split; [|split; [reflexivity|exists [0; 0]; reflexivity]]].
  - split; [lia|]. split; [vm_compute; discriminate|]. split; [reflexivity|]. apply Nat.leb_le. vm_compute. reflexivity.
  - split; [lia|]. split; [vm_compute; discriminate|]. split; [reflexivity|]. apply Nat.leb_le. vm_compute. reflexivity.
Qed.

(** ** C11 (second half) Value pointers of the compact label stores dangle after one more update *)
Definition many_keys : list (list N) := flat_map (fun c => map (fun d => [c; d; 0]) (count_up 25 1)) (count_up 16 1).
Definition last_is_read (xs : outcome (list (answer * N))) : bool :=
  match xs with Ret l => match List.last l (Null, 0) with (Value _, _) => true | _ => false end | _ => false end.
Theorem C11_dangling_pointers : forall a, stable_alias a = false ->
  exists ks k i, NoDup (ks ++ [k]) /\ Forall valid_key (ks ++ [k]) /\
    last_is_read (answers false 4 a (map HUpdate ks ++ [HRead i])) = true /\
    answers false 4 a (map HUpdate ks ++ [HUpdate k; HRead i]) = UB.
Proof.
  assert (Hkeys : forall n k, many_keys !! n = Some k -> NoDup (firstn n many_keys ++ [k]) /\ Forall valid_key (firstn n many_keys ++ [k])).
  { intros n k Hn. rewrite <- (take_S_r many_keys n k Hn). split.
    - assert (Hnd : NoDup many_keys) by (apply (bool_decide_unpack _); vm_compute; exact I).
      rewrite <- (take_drop (S n) many_keys) in Hnd. apply NoDup_app in Hnd. apply Hnd.
    - apply Forall_take. apply (Forall_impl (fun k => exists c d, k = [c; d; 0] /\ 0 < c < 256 /\ 0 < d < 256)).
      + assert (Hup : forall n c x, In x (count_up n c) -> c <= x < c + N.of_nat n).
        { clear. induction n as [|n IH]; intros c x; [intros []|]. intros [<-|H]; [lia|]. specialize (IH _ _ H). lia. }
        apply Forall_forall. intros x Hx. apply elem_of_list_In in Hx. unfold many_keys in Hx.
        apply in_flat_map in Hx as (c & Hc & Hx). apply in_map_iff in Hx as (d & <- & Hd).
        apply Hup in Hc, Hd. exists c, d. split; [reflexivity|]. lia.
      + intros x (c & d & -> & Hc & Hd). exists [c; d]. split; [reflexivity|]. repeat constructor; tauto. }
  assert (Hw : forall a n h k, many_keys !! n = Some k ->
    last_is_read (answers false 4 a (map HUpdate (firstn n many_keys) ++ [HRead h])) = true ->
    answers false 4 a (map HUpdate (firstn n many_keys) ++ [HUpdate k; HRead h]) = UB ->
    exists ks k i, NoDup (ks ++ [k]) /\ Forall valid_key (ks ++ [k]) /\
      last_is_read (answers false 4 a (map HUpdate ks ++ [HRead i])) = true /\
      answers false 4 a (map HUpdate ks ++ [HUpdate k; HRead i]) = UB).
  { intros a n h k E H3 H4. destruct (Hkeys n k E) as [H1 H2]. exists (firstn n many_keys), k, h. tauto. }
  intros a Ha. destruct a as [|c|c| |c|c]; try discriminate Ha.
  - destruct c; [apply (Hw _ 237%nat 87%nat [10; 13; 0])|apply (Hw _ 85%nat 73%nat [4; 11; 0])|
      apply (Hw _ 85%nat 73%nat [4; 11; 0])|apply (Hw _ 23%nat 12%nat [1; 24; 0])]; rewrite ?answers_run; run.
  - destruct c; [apply (Hw _ 133%nat 52%nat [6; 9; 0])|apply (Hw _ 133%nat 52%nat [6; 9; 0])|
      apply (Hw _ 41%nat 29%nat [2; 17; 0])|apply (Hw _ 41%nat 29%nat [2; 17; 0])]; rewrite ?answers_run; run.
  - apply (Hw _ 1%nat 0%nat [1; 2; 0]); rewrite ?answers_run; destruct c; run.
  - apply (Hw _ 1%nat 0%nat [1; 2; 0]); rewrite ?answers_run; destruct c; run.
Qed.

(** ** C14 Assertions of the plain FK-hash tries reject the empty string after other keys *)
(** In a build with assertions, update of the empty string fails on every map of these aliases that holds
    at least one key, unless the empty string was the first key ... *)
Theorem C14_debug_empty_string : forall vs a cb e ops m, traps true a = true ->
  supported vs cb e (updated ops ++ [[0]]) -> Forall (valid_op vs) ops -> ~ In [0] (updated ops) -> updated ops <> [] ->
  reaches true vs a cb e ops m -> a_update true vs a m [0] = AssertFail.
Proof. exact update_trap. Qed.
(** ... while a build without assertions handles it like any other key, and so do the other aliases in both
    builds (C01-C13 with [no_trap]).  The aliases concerned: *)
Theorem C14_aliases : forall dbg a, traps dbg a = true <-> dbg = true /\ (a = plain_fkhash_map \/ exists c, a = semi_compact_fkhash_map c).
Proof.
  intros dbg a. split.
  - destruct a as [|c|c| |c|c]; simpl; try discriminate; intros ->; eauto.
  - intros [-> [->|[c ->]]]; reflexivity.
Qed.
Definition c14_ops : list op := [Update [97; 0] None; Update [0] (Some [7; 0; 0; 0]); Find [0]].
Example C14_both_builds : forall c,
  seen_by true 4 plain_fkhash_map 0 32 c14_ops = AssertFail /\
  seen_by true 4 (semi_compact_fkhash_map c) 0 32 c14_ops = AssertFail /\
  seen_by false 4 plain_fkhash_map 0 32 c14_ops =
    Ret [(Saw [0; 0; 0; 0], 1); (Saw [0; 0; 0; 0], 2); (Found (Some [7; 0; 0; 0]), 2)] /\
  seen_by true 4 (compact_fkhash_map c) 0 32 c14_ops =
    Ret [(Saw [0; 0; 0; 0], 1); (Saw [0; 0; 0; 0], 2); (Found (Some [7; 0; 0; 0]), 2)].
Proof. intros c. unfold seen_by. rewrite !a_new_fast_ok. revert c. intros []; (split; [run|]; split; [run|]; split; run). Qed.

(** ** C16 A moved-from map is not reusable *)
(** After [map to(std::move(m))] for any reachable non-empty [m]: [to] answers like [m] did, [m] still reports
    its size, and find and update on it run into emptied storage for every key. *)
Theorem C16_move : forall dbg vs a cb e ops m,
  supported vs cb e (updated ops) -> Forall (valid_op vs) ops -> no_trap dbg a (updated ops) ->
  reaches dbg vs a cb e ops m -> updated ops <> [] ->
  let to := fst (a_move dbg vs a m) in
  let from := snd (a_move dbg vs a m) in
  (forall k, valid_key k -> N.of_nat (length k) < 2 ^ 64 ->
     find_value dbg vs a to k = Ret (value_after vs k None ops) /\
     (a_find dbg vs a from k = UB \/ a_find dbg vs a from k = AssertFail) /\
     (a_update dbg vs a from k = UB \/ a_update dbg vs a from k = AssertFail)) /\
  a_size dbg vs a to = a_size dbg vs a m /\ a_size dbg vs a from = a_size dbg vs a m /\ 0 < a_size dbg vs a from.
Proof.
  intros dbg vs a cb e ops m Hsup Hv Hnt Hr Hne to from.
  assert (Hpos : 0 < a_size dbg vs a m).
  { rewrite (C03_size dbg vs a cb e ops m Hsup Hv Hnt Hr).
    destruct (nodup (List.list_eq_dec N.eq_dec) (updated ops)) as [|k ks] eqn:E; [|simpl; lia].
    destruct (updated ops) as [|k ks]; [congruence|].
    assert (Hin : In k []) by (rewrite <- E; apply nodup_In; left; reflexivity). destruct Hin. }
  destruct (reach_root dbg vs a cb e _ Hsup ops [] m (eq_sym (app_nil_r _)) Hv Hnt Hr Hne)
    as (S & D & b & loc & lab & l & v & root & _ & _ & Hrd & Hsz & Er & _).
  split; [|split; [reflexivity|]; split; [reflexivity|exact Hpos]].
  intros k Hk Hlen. split; [apply (C01_find dbg vs a cb e ops m k Hsup Hv Hnt Hr Hk Hlen)|].
  destruct (valid_okey k Hk) as [Hok _]. assert (Hk0 : k <> []) by (intros ->; destruct (okey_nil Hok)).
  assert (Hfrom : t_size _ (m_trie _ _ from) <> 0 /\ t_get_root _ (m_trie _ _ from) = Ret root /\ m_ready _ _ from = true).
  { unfold from, a_move. cbn [snd m_trie m_ready]. rewrite moved_size, moved_root. auto. }
  destruct Hfrom as (H1 & H2 & H3). split.
  - unfold a_find, map_find. rewrite (check_key_ok k Hok), bind_ret, H3, (proj2 (N.eqb_neq _ _) H1). cbn [negb orb].
    rewrite H2, bind_ret. apply broken_loop. cbn beta iota. destruct k as [|c k]; [congruence|].
    apply broken_bind. unfold from, a_move. cbn [snd m_nlm]. apply moved_compare.
  - unfold a_update, map_update, update_body. rewrite (check_key_ok k Hok), bind_ret, (proj2 (N.eqb_neq _ _) H1).
    rewrite H2, bind_ret. apply broken_loop. cbn beta iota. destruct k as [|c k]; [congruence|].
    apply broken_bind. unfold from, a_move. cbn [snd m_nlm]. apply moved_compare.
Qed.
(** What the assertion guards: with assertions off, the plain stores index an emptied vector, too. *)
Theorem C16_plain_storage : forall dbg vs a (m : a_map dbg vs a) i,
  match a as a return nT (a_nlm vs a) -> Prop with
  | plain_bonsai_map => fun n => vget (pbn_ptrs n) i = UB
  | plain_fkhash_map => fun n => vget (pfn_ptrs n) i = UB
  | _ => fun _ => True
  end (m_nlm _ _ (snd (a_move dbg vs a m))).
Proof. intros dbg vs [|c|c| |c|c] m i; try exact I; apply vget_empty. Qed.
(** [to = std::move(from)]: whatever [to] held before (a map in use, or one that was moved from), it goes on with the
    history of [from], with any later calls; so a moved-from map can be used again after it was assigned to. *)
Theorem C16_assign : forall dbg vs a cb e ops later from to,
  supported vs cb e (updated (ops ++ later)) -> Forall (valid_op vs) (ops ++ later) ->
  no_trap dbg a (updated (ops ++ later)) -> reaches dbg vs a cb e ops from ->
  let to' := fst (a_move_assign dbg vs a to from) in
  a_size dbg vs a to' = a_size dbg vs a from /\ a_capa_size dbg vs a to' = a_capa_size dbg vs a from /\
  yields a cb e (updated (ops ++ later)) (a_run dbg vs a to' later)
    (fun '(xs, _) => xs = fst (spec_run vs (final vs ops) later)).
Proof.
  intros dbg vs a cb e ops later from to Hsup Hv Hnt Hr to'.
  assert (E : to' = from) by (destruct from; reflexivity). rewrite E. split; [reflexivity|]. split; [reflexivity|].
  apply Forall_app in Hv as [Hv1 Hv2]. rewrite updated_app in Hnt. destruct (no_trap_app _ _ _ _ Hnt) as [Hn1 Hn2].
  destruct (reach_inv dbg vs a cb e _ Hsup ops (updated later) from (updated_app _ _) Hv1 Hn1 Hr) as (S & D & b & loc & Hi & HSA & _).
  eapply yields_mono.
  { apply (run_inv dbg vs a cb e _ Hsup ops later [] from S D b loc); auto. rewrite app_nil_r. reflexivity. }
  intros [xs m'] [H _]. exact H.
Qed.
(** [from] is then as after the move constructor. *)
Theorem C16_assign_from : forall dbg vs a (to from : a_map dbg vs a),
  snd (a_move_assign dbg vs a to from) = snd (a_move dbg vs a from).
Proof. intros. reflexivity. Qed.
Example C16_demo : forall a, exists m seen, a_new false 4 a 0 32 = Ret m /\
  a_run false 4 a m demo = Ret seen /\ updated demo <> [].
Proof.
  intros a. destruct demo_valid as (H1 & H2 & _).
  assert (Hs : seen_by false 4 a 0 32 demo <> UB) by (rewrite demo_runs; discriminate).
  pose proof (demo_runs a) as H. unfold seen_by in H.
  destruct (a_new false 4 a 0 32) as [m| | | |]; try discriminate H. exists m. cbn [bind] in H.
  destruct (a_run false 4 a m demo) as [r| | | |]; try discriminate H. exists r. split; [reflexivity|].
  split; [reflexivity|discriminate].
Qed.

(** One query for all theorems of this file. *)
Definition limit_props := (@C09_code_exhaustion,
  @C09_code_reuse,
  @C10_compact_wrong_value,
  @C10_plain_reads_value,
  @C10_update_not_counted,
  @C10_update_as_find,
  @C10_first_key,
  @C11_dangling_pointers,
  @C14_debug_empty_string,
  @C14_aliases,
  @C16_move,
  @C16_assign,
  @C16_assign_from,
  @C16_plain_storage).
Print Assumptions limit_props.
