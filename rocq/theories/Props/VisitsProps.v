(** C55: how many nodes and labels find and update look at: a number that depends on the key alone. *)
From Verif.Model Require Export Visits.
From Verif.Proofs Require Import InstP VisitsP VisitsPresentP VisitsGrowP FastP.
From Verif.Props Require Export InstSpec.
Local Open Scope N_scope.

(** The counters change nothing: without them these are the functions of the model. *)
Theorem C55_find_same : forall dbg vs i (m : i_map dbg vs i) k,
  i_find dbg vs i m k = let* r := i_find_v dbg vs i m k in Ret (fst r).
Proof. intros. apply find_same. Qed.
Theorem C55_update_same : forall dbg vs i (m : i_map dbg vs i) k,
  i_update dbg vs i m k = let* r := i_update_v dbg vs i m k in Ret (fst r).
Proof. intros. apply update_same. Qed.

(** Whatever map, however many keys it holds, and whatever byte range: the children looked up for bytes of the range
    and lambda times the step nodes looked up are together at most its length, and one label is
    compared per child, and at most one more.  So at most |k| + 1 labels and |k| children (lambda is at least 1). *)
Theorem C55_find : forall dbg vs i (m : i_map dbg vs i) k r v, N.of_nat (length k) < 2 ^ 64 ->
  i_find_v dbg vs i m k = Ret (r, v) ->
  v_edges v <= v_labels v <= v_edges v + 1 /\ m_lambda _ _ m * v_steps v + v_edges v <= N.of_nat (length k).
Proof. intros dbg vs i m k r v Hl H. apply (find_cost _ _ _ (i_compare_le vs i) m k r v Hl H). Qed.
Theorem C55_update : forall dbg vs i (m : i_map dbg vs i) k r m' v, N.of_nat (length k) < 2 ^ 64 ->
  i_update_v dbg vs i m k = Ret (r, m', v) ->
  v_edges v <= v_labels v <= v_edges v + 1 /\ m_lambda _ _ m * v_steps v + v_edges v <= N.of_nat (length k).
Proof. intros dbg vs i m k r m' v Hl H. apply (update_cost _ _ _ (i_compare_le vs i) m k r m' v Hl H). Qed.

(** After any history find returns, within these bounds. *)
Theorem C55_reached : forall dbg vs i cb e ops m k, valid_inst i ->
  i_supported vs i cb e (updated ops) -> Forall (valid_op vs) ops -> i_no_trap dbg i (updated ops) ->
  i_reaches dbg vs i cb e ops m -> valid_key k -> N.of_nat (length k) < 2 ^ 64 ->
  exists r v, i_find dbg vs i m k = Ret r /\ i_find_v dbg vs i m k = Ret (r, v) /\
    v_edges v <= v_labels v <= v_edges v + 1 /\ 2 ^ e * v_steps v + v_edges v <= N.of_nat (length k).
Proof.
  intros dbg vs i cb e ops m k Hvi Hsup Hv Hnt Hr Hk Hlen.
  destruct (i_reach_inv dbg vs i cb e ops m Hvi Hsup Hv Hnt Hr) as (K & S & D & b & loc & Hi & _).
  destruct (i_supported_limit _ _ _ _ _ Hvi Hsup) as (He & _).
  pose proof (ip_ok _ _ _ _ _ _ K) as PK. destruct (valid_okey k Hk) as [Hok Hb].
  pose proof (minv_find dbg _ _ _ _ e _ _ _ _ _ PK He m S D _ b loc k Hi Hok Hb Hlen) as H.
  pose proof (C55_find_same dbg vs i m k) as E. unfold i_find in E. rewrite E in H.
  destruct (i_find_v dbg vs i m k) as [[r v]| | | |] eqn:Ev; try contradiction H. exists r, v.
  split; [exact E|]. split; [reflexivity|]. destruct (C55_find dbg vs i m k r v Hlen Ev) as [H1 H2]. split; [exact H1|].
  replace (2 ^ e) with (m_lambda _ _ m); [exact H2|].
  destruct Hi as [(_ & _ & _ & _ & Hf)|[lab R]]; [apply (mf_lam _ _ _ _ _ _ Hf)|apply (mr_lam _ _ _ _ _ _ _ _ _ _ _ R)].
Qed.

(** If find returns a pointer for a byte range, update of it returns the same pointer and makes exactly the same
    comparisons and lookups (its add_child calls find every node there). *)
Theorem C55_update_present : forall dbg vs i cb e ops m k p v, valid_inst i ->
  i_supported vs i cb e (updated ops) -> Forall (valid_op vs) ops -> i_no_trap dbg i (updated ops) ->
  i_reaches dbg vs i cb e ops m -> i_find_v dbg vs i m k = Ret (Some p, v) ->
  i_yields i cb e (updated ops) (i_update_v dbg vs i m k) (fun '(r, m', w) => r = UPtr (Some p) /\ w = v).
Proof. intros. eapply i_update_as_find_v; eassumption. Qed.

(** One update adds at most as many nodes to the trie as the children and step nodes it counts (each was looked up by
    one add_child call, which adds at most one node), and the root if the trie was empty. *)
Theorem C55_update_grows : forall dbg vs i cb e ops m k r m' v, valid_inst i ->
  i_supported vs i cb e (updated ops ++ [k]) -> Forall (valid_op vs) ops -> i_no_trap dbg i (updated ops ++ [k]) ->
  i_reaches dbg vs i cb e ops m -> valid_key k -> N.of_nat (length k) + N.of_nat vs < 2 ^ 64 ->
  i_update_v dbg vs i m k = Ret (r, m', v) ->
  i_nodes dbg vs i m' <= N.max 1 (i_nodes dbg vs i m + (v_edges v + v_steps v)).
Proof. intros. eapply i_update_grow; eassumption. Qed.

(** ** The hypotheses are met, and the bounds are exact *)
Definition vi : inst := inst_of (compact_fkhash_map cs8).
Definition vdemo : list op :=
  [Update [9; 9; 9; 9; 9; 9; 0] None; Update [1; 7; 0] None; Update [1; 0] None; Update [9; 9; 9; 9; 4; 0] None].
Example vdemo_valid : valid_inst vi /\ i_supported 2 vi 0 1 (updated vdemo) /\ Forall (valid_op 2) vdemo /\
  i_no_trap true vi (updated vdemo).
Proof.
  assert (Hk : forall s, Forall (fun c => 0 < c < 256) s -> valid_key (s ++ [0])) by (intros s Hs; exists s; auto).
  split. { split; [cbn; lia|]. split; [cbn; lia|]. cbn. split; exact HashP.split_mix_ok. }
  split.
  { split; [lia|]. split; [vm_compute; discriminate|]. split; [reflexivity|].
    assert (H : (size (alphabet (updated vdemo)) <=? 254)%nat = true) by (vm_compute; reflexivity).
    apply Nat.leb_le, H. }
  split; [|intros H; discriminate H].
  repeat constructor; [apply (Hk [9; 9; 9; 9; 9; 9])|apply (Hk [1; 7])|apply (Hk [1])|apply (Hk [9; 9; 9; 9; 4])]; repeat constructor.
Qed.
(** [1; 0] takes two children and three labels; [9; 9; 9; 9; 4; 0] two steps of lambda = 2, one child and two labels
    (2 * 2 + 1 of 6 bytes); an absent key stops early, after one step or at the third, which does not exist (update adds
    it); find in an empty map and the first insertion look at nothing. *)
Example vdemo_counts :
  (let* m := i_new true 2 vi 0 2 in let* r := i_run true 2 vi m vdemo in
   let* a := i_find_v true 2 vi (snd r) [1; 0] in let* b := i_find_v true 2 vi (snd r) [9; 9; 9; 9; 4; 0] in
   let* c := i_find_v true 2 vi (snd r) [9; 9; 3; 0] in let* d := i_update_v true 2 vi (snd r) [1; 7; 7; 0] in
   let* f := i_update_v true 2 vi m [1; 2; 3; 0] in
   let* g := i_find_v true 2 vi (snd r) [9; 9; 9; 9; 9; 9; 3; 0] in
   let* h := i_update_v true 2 vi (snd r) [9; 9; 9; 9; 9; 9; 3; 0] in let* j := i_find_v true 2 vi m [1; 0] in
   Ret (map (fun o : option ptr * visits => if fst o then true else false) [a; b; c; g; j],
        [snd a; snd b; snd c; snd d; snd f; snd g; snd h; snd j])) =
  Ret ([true; true; false; false; false],
       [mkVisits 3 2 0; mkVisits 2 1 2; mkVisits 1 0 1; mkVisits 2 2 0; mkVisits 0 0 0; mkVisits 1 0 3; mkVisits 1 1 3;
        mkVisits 0 0 0]).
Proof. run. Qed.

(** Nodes before and after an update: the first key adds the root only; [1; 7; 7; 0] finds its child for 1 and adds one
    for 7; the last adds the third step node and the child below it. *)
Example vdemo_nodes :
  (let* m := i_new true 2 vi 0 2 in let* r := i_run true 2 vi m vdemo in
   let* d := i_update_v true 2 vi (snd r) [1; 7; 7; 0] in let* f := i_update_v true 2 vi m [1; 2; 3; 0] in
   let* h := i_update_v true 2 vi (snd r) [9; 9; 9; 9; 9; 9; 3; 0] in
   let size := i_nodes true 2 vi in
   Ret [(size m, size (snd (fst f)), snd f); (size (snd r), size (snd (fst d)), snd d);
        (size (snd r), size (snd (fst h)), snd h)]) =
  Ret [(0, 1, mkVisits 0 0 0); (6, 7, mkVisits 2 2 0); (6, 8, mkVisits 1 1 3)].
Proof. run. Qed.

Definition visits_props := (@C55_find_same, @C55_update_same, @C55_find, @C55_update, @C55_reached, @C55_update_present,
  @C55_update_grows).
Print Assumptions visits_props.
