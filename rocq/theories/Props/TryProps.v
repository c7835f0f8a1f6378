(** C44: update throws at most once in the life of a map, and then without effect.
    [shows] is defined in Props/TrySpec.v, [supported_255] and [try_reaches] in Props/ReachSpec.v, the others as
    for MapProps.v. *)
From Verif.Proofs Require Import TryP FastP.
Local Open Scope N_scope.

(** Any history on keys with at most 255 different bytes (NUL included), by a user who catches the exception
    and goes on: at most one call throws; it has no effect on what the user sees, and everything before and
    after it is what the dictionary shows.  With fewer than 255 bytes no call throws. *)
Theorem C44_one_throw : forall dbg vs a cb e ops,
  supported_255 vs cb e (updated ops) -> Forall (valid_op vs) ops -> no_trap dbg a (updated ops) ->
  exists m0, a_new dbg vs a cb (2 ^ e) = Ret m0 /\
    yields a cb e (updated ops) (a_try_run dbg vs a m0 ops) (fun '(seen, _) =>
      exists throws d, shows vs throws ∅ ops seen d /\ (throws = true -> size (alphabet (updated ops)) = 255%nat)).
Proof.
  intros dbg vs a cb e ops Hs Hv Hnt.
  destruct (try_total dbg vs a cb e _ Hs ops [] (eq_sym (app_nil_r _)) Hv Hnt) as (m0 & E & H). exists m0. split; [exact E|].
  eapply yields_mono; [exact H|]. intros [xs m] (th & S & D & M & b & loc & Hsh & Hth & _). eauto.
Qed.

(** If update(k) throws on a map reached by such a history: the key was not there, size() and the result of
    every find are as before the call, and the same call again returns a pointer to a zero value,
    counts the key and changes no other key. *)
Theorem C44_strong_guarantee : forall dbg vs a cb e ops m k x m',
  supported_255 vs cb e (updated ops ++ [k]) -> Forall (valid_op vs) ops -> no_trap dbg a (updated ops ++ [k]) ->
  try_reaches dbg vs a cb e ops m -> valid_key k -> N.of_nat (length k) + N.of_nat vs < 2 ^ 64 ->
  a_update dbg vs a m k = Ret (UThrow x, m') ->
  a_size dbg vs a m' = a_size dbg vs a m /\
  (forall k', valid_key k' -> N.of_nat (length k') < 2 ^ 64 -> find_value dbg vs a m' k' = find_value dbg vs a m k') /\
  find_value dbg vs a m k = Ret None /\
  yields a cb e (updated ops ++ [k]) (a_update dbg vs a m' k) (fun '(r, m'') => exists p, r = UPtr (Some p) /\
    a_read dbg vs a m'' p = Ret (replicate vs 0) /\ a_size dbg vs a m'' = a_size dbg vs a m + 1 /\
    find_value dbg vs a m'' k = Ret (Some (replicate vs 0)) /\
    (forall k', k' <> k -> valid_key k' -> N.of_nat (length k') < 2 ^ 64 ->
       find_value dbg vs a m'' k' = find_value dbg vs a m k')).
Proof.
  intros dbg vs a cb e ops m k x m' Hs Hv Hnt Hr Hk Hsm E.
  apply (throw_inv dbg vs a cb e _ Hs ops m k eq_refl Hv Hnt Hr Hk Hsm x m' E).
Qed.

(** The plain maps, pointers kept across the exception: the failed call gives no pointer, all others stay
    good for any history that follows. *)
Theorem C44_kept_pointers : forall dbg vs a cb e ops1 k ops2 s1 m0 xs1 m1 ps x m2 r, stable_alias a = true ->
  supported_255 vs cb e (hupdated (ops1 ++ HUpdate k :: ops2)) -> Forall (hvalid_op vs) (ops1 ++ HUpdate k :: ops2) ->
  no_trap dbg a (hupdated (ops1 ++ HUpdate k :: ops2)) ->
  a_new dbg vs a cb (2 ^ e) = Ret m0 -> a_hrun dbg vs a m0 ops1 = Ret (xs1, m1, ps) ->
  a_update dbg vs a m1 k = Ret (UThrow x, m2) ->
  hspec_run vs (∅, []) ops1 = Some s1 -> hspec_run vs (fst (snd s1), snd (snd s1) ++ [None]) ops2 = Some r ->
  xs1 = fst s1 /\
  yields a cb e (hupdated (ops1 ++ HUpdate k :: ops2)) (a_hcont dbg vs a m2 (ps ++ [None]) ops2) (fun '(xs2, _, _) => xs2 = fst r).
Proof.
  intros dbg vs a cb e ops1 k ops2 s1 m0 xs1 m1 ps x m2 r Hst Hs Hv Hnt E0 E1 E2 Es1 Es2.
  apply (throw_handles dbg vs a cb e _ Hs ops1 k ops2 s1 m0 xs1 m1 ps x m2 r Hst eq_refl Hv Hnt E0 E1 E2 Es1 Es2).
Qed.

(** ** The exception happens *)
(** 254 keys that branch on 254 different bytes; then the 255th byte throws; the same call again succeeds. *)
Fixpoint letters (n : nat) (c : N) : list N := match n with O => [] | S n => c :: letters n (c + 1) end.
Definition before : list op := map (fun c => Update [c; 0] (Some [c; 1; 2; 3])) (letters 253 1) ++ [Update [2; 1; 0] None].
Definition story : list op :=
  before ++ [Update [254; 0] (Some [7; 7; 7; 7]); Find [254; 0]; Find [1; 0]; Update [254; 0] (Some [8; 8; 8; 8]); Find [254; 0]].
Definition told (dbg : bool) (a : alias) (ops : list op) : outcome (list (tobs * N)) :=
  let* m := a_new_fast dbg 4 a 0 32 in let* r := a_try_run dbg 4 a m ops in Ret (skipn 254 (fst r)).
Example C44_story : forall a, told false a story =
  Ret [(Caught, 254); (Did (Found None), 254); (Did (Found (Some [1; 1; 2; 3])), 254); (Did (Saw [0; 0; 0; 0]), 255);
       (Did (Found (Some [8; 8; 8; 8])), 255)].
Proof. intros [|[]|[]| |[]|[]]; run. Qed.
Lemma letter_keys n : forall c, (0 < c) -> c + N.of_nat n <= 256 -> Forall (valid_op 4) (map (fun c => Update [c; 0] (Some [c; 1; 2; 3])) (letters n c)).
Proof.
  induction n as [|n IH]; intros c H1 H2; [constructor|]. cbn [letters map]. constructor; [|apply IH; lia].
  split; [|split; reflexivity]. exists [c]. split; [reflexivity|]. constructor; [|constructor]. lia.
Qed.
(** The hypotheses of the theorems for this history, and the exception they speak of. *)
Example C44_hypotheses : forall a, supported_255 4 0 5 (updated story) /\ size (alphabet (updated story)) = 255%nat /\
  Forall (valid_op 4) story /\ no_trap false a (updated story) /\
  supported_255 4 0 5 (updated before ++ [[254; 0]]) /\ Forall (valid_op 4) before /\
  no_trap false a (updated before ++ [[254; 0]]) /\
  exists m m', try_reaches false 4 a 0 5 before m /\ a_update false 4 a m [254; 0] = Ret (UThrow ExCodes, m').
Proof.
  intros a. assert (Hb : Forall (valid_op 4) before) by (apply Forall_app; split; [apply letter_keys; lia|]; repeat constructor; try assumption; exists [2; 1]; split; [reflexivity|]; repeat constructor).
  assert (Hk : valid_key [254; 0]). { exists [254]. split; [reflexivity|]. repeat constructor. }
  assert (Hk1 : valid_key [1; 0]). { exists [1]. split; [reflexivity|]. repeat constructor. }
  assert (Ha : size (alphabet (updated story)) = 255%nat) by (vm_compute; reflexivity).
  assert (Ha2 : size (alphabet (updated before ++ [[254; 0]])) = 255%nat) by (vm_compute; reflexivity).
  assert (Ht : traps false a = false) by (destruct a; reflexivity).
  split. { split; [lia|]. split; [vm_compute; discriminate|]. split; [vm_compute; reflexivity|]. rewrite Ha. lia. }
  split; [exact Ha|].
  split. { apply Forall_app. split; [exact Hb|]. repeat constructor; try assumption; reflexivity. }
  split. { intros H. rewrite Ht in H. discriminate H. }
  split. { split; [lia|]. split; [vm_compute; discriminate|]. split; [vm_compute; reflexivity|]. rewrite Ha2. lia. }
  split; [exact Hb|]. split. { intros H. rewrite Ht in H. discriminate H. }
  assert (H : (let* m := a_new_fast false 4 a 0 32 in let* r := a_try_run false 4 a m before in
               let* u := a_update false 4 a (snd r) [254; 0] in
               Ret (match u with (UThrow ExCodes, _) => true | _ => false end)) = Ret true).
  { revert a Ht. intros [|[]|[]| |[]|[]] _; run. }
  rewrite <- a_new_fast_ok in H. unfold try_reaches. change (2 ^ 5) with 32.
  destruct (a_new false 4 a 0 32) as [m0| | | |]; try discriminate H. cbn [bind] in H.
  destruct (a_try_run false 4 a m0 before) as [[xs m]| | | |] eqn:Er; try discriminate H. cbn [bind snd] in H.
  destruct (a_update false 4 a m [254; 0]) as [[[p|x] m']| | | |] eqn:Eu; try discriminate H.
  destruct x; try discriminate H. exists m, m'. split; [exists m0, xs; auto|exact Eu].
Qed.

(** One query for all theorems of this file. *)
Definition try_props := (@C44_one_throw, @C44_strong_guarantee, @C44_kept_pointers).
Print Assumptions try_props.
