(** C52: destroying a map releases every block it allocated, once. *)
From Verif.Props Require Export DestroySpec MapSpec.
From Verif.Proofs Require Import OwnP FastP.
Local Open Scope N_scope.

Lemma lives_mown dbg vs i own : nlm_own (i_nlm vs i) own (i_label_destroy vs i) -> fail_own own (i_label_fail vs i) ->
  (forall n, own (i_nlm_moved vs i n) /\ forall id, hp_find (n_heap (i_nlm vs i) (i_nlm_moved vs i n)) id = None) ->
  forall m, lives dbg vs i m -> mown (i_trie dbg i) (i_nlm vs i) own m.
Proof.
  intros Hn Hf Hm m H. induction H as [|cb lambda m E|m f k r m' _ IH E|m p w m' _ IH E|m _ IH].
  - split; cbn [map_default m_nlm m_ready m_trie]; [apply Hn|]. intros _. split; [apply i_default_size|apply Hn].
  - apply mready_mown, (new_own _ _ _ _ Hn _ _ _ E).
  - apply (update_oom_own dbg _ _ _ _ own _ Hn Hf f m k r m' IH E).
  - apply (write_own _ _ _ _ Hn m p w m' IH E).
  - unfold i_moved_from. split; cbn [m_nlm m_ready m_trie]; [apply Hm|]. intros Er. rewrite i_moved_size.
    split; [apply (proj2 IH Er)|apply Hm].
Qed.

(** Whatever happened to a map before, its destructor releases no block twice and leaves none allocated. *)
Theorem C52_destroy : forall dbg vs i m, lives dbg vs i m ->
  exists h, i_destroy dbg vs i m = Ret h /\ forall id, hp_find h id = None.
Proof.
  intros dbg vs i m H. destruct (inst_own vs i) as (own & Hn & Hf & Hm).
  apply (mown_destroy _ _ own _ Hn), (lives_mown dbg vs i own Hn Hf Hm m H).
Qed.

(** The two places where the program drops a label store without its destructor lose nothing: the store that update
    replaces when the map was not initialised (map.hpp:126-128), and the one of a map moved from, all of whose blocks
    now belong to the other map. *)
Theorem C52_replaced : forall dbg vs i m, lives dbg vs i m ->
  (m_ready _ _ m = false -> owns_nothing dbg vs i m) /\ owns_nothing dbg vs i (i_moved_from dbg vs i m).
Proof.
  intros dbg vs i m H. destruct (inst_own vs i) as (own & Hn & Hf & Hm).
  pose proof (lives_mown dbg vs i own Hn Hf Hm m H) as [_ H1]. split.
  - intros Er. exact (proj2 (H1 Er)).
  - exact (proj2 (Hm (m_nlm _ _ m))).
Qed.

(** In particular after any sequence of calls of find and update, of which any may run out of memory anywhere. *)
Corollary C52_history : forall dbg vs i cb lambda m0 ops seen m,
  i_new dbg vs i cb lambda = Ret m0 -> i_oom_run dbg vs i m0 ops = Ret (seen, m) ->
  exists h, i_destroy dbg vs i m = Ret h /\ forall id, hp_find h id = None.
Proof.
  intros dbg vs i cb lambda m0 ops seen m E0 E. apply C52_destroy.
  assert (H0 : lives dbg vs i m0) by (eapply lives_new; exact E0). clear E0. revert m0 seen H0 E.
  induction ops as [|[o f] ops IH]; intros m0 seen H0 E; unfold i_oom_run in E; cbn [oom_run] in E.
  - injection E as _ <-. exact H0.
  - apply bind_inv in E as ([xn m1] & E1 & E). apply bind_inv in E as ([xs m2] & E2 & E). injection E as _ <-.
    apply (IH m1 xs); [|exact E2]. clear IH E2. destruct o as [k w|k]; unfold oom_step in E1.
    + apply bind_inv in E1 as ([r m3] & Eu & E1).
      assert (H3 : lives dbg vs i m3) by (eapply lives_update; [exact H0|exact Eu]). destruct r as [[[p|]|x]|]; try discriminate.
      * apply bind_inv in E1 as (v & _ & E1). apply bind_inv in E1 as (m4 & E4 & E1). injection E1 as _ <-.
        destruct w as [w|]; [eapply lives_write; [exact H3|exact E4]|injection E4 as <-; exact H3].
      * injection E1 as _ <-. exact H3.
    + apply bind_inv in E1 as ([p|] & _ & E1).
      * apply bind_inv in E1 as (v & _ & E1). injection E1 as _ <-. exact H0.
      * injection E1 as _ <-. exact H0.
Qed.

(** ** Examples *)
Definition key_of (s : list N) : list N := s ++ [0].
Definition tech := key_of [116; 101; 99; 104].
Definition tea := key_of [116; 101; 97].
Definition x_ := key_of [120].
(** Keys with lambda = 2 (step nodes), one of them with an embedded NUL, and a label that cannot be allocated. *)
Definition demo : list oop :=
  [(Update tech (Some [1; 0; 0; 0]), None); (Update x_ None, None); (Update [0; 65; 0] None, None);
   (Update tea (Some [2; 0; 0; 0]), Some (InLabel 0))].
(** What the calls answered, and the bytes allocated before and after the destruction. *)
Notation in_use a := (let* m0 := a_new false 4 a 0 2 in let* r := i_oom_run false 4 (inst_of a) m0 demo in
  let* h := i_destroy false 4 (inst_of a) (snd r) in
  Ret (map fst (fst r), hp_total (n_heap (i_nlm 4 (inst_of a)) (m_nlm _ _ (snd r))), hp_total h)) (only parsing).
Notation saw n := (Ret ([Done (Saw [0; 0; 0; 0]); Done (Saw [0; 0; 0; 0]); Done (Saw [0; 0; 0; 0]); NoMemory], n%N, 0%N)) (only parsing).
Example demo_destroyed :
  in_use plain_bonsai_map = saw 20 /\ in_use (semi_compact_bonsai_map cs16) = saw 20 /\
  in_use (compact_bonsai_map cs8) = saw 20 /\ in_use plain_fkhash_map = saw 20 /\
  in_use (semi_compact_fkhash_map cs64) = saw 21 /\ in_use (compact_fkhash_map cs16) = saw 21.
Proof. rewrite !a_new_fast_ok. split; [run|]. split; [run|]. split; [run|]. split; [run|]. split; run. Qed.
(** One of these runs as an instance of the theorem. *)
Example demo_lives m0 r : a_new false 4 (compact_bonsai_map cs8) 0 2 = Ret m0 ->
  i_oom_run false 4 (inst_of (compact_bonsai_map cs8)) m0 demo = Ret r ->
  exists h, i_destroy false 4 (inst_of (compact_bonsai_map cs8)) (snd r) = Ret h /\ forall id, hp_find h id = None.
Proof. destruct r as [seen m]. intros E0 E. exact (C52_history false 4 (inst_of (compact_bonsai_map cs8)) 0 2 m0 demo seen m E0 E). Qed.

Definition destroy_props := (@C52_destroy, @C52_replaced, @C52_history).
Print Assumptions destroy_props.
