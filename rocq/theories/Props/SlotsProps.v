(** C58: how many slots of the hash table find inspects: a number that depends on the length of the key and on the
    number of nodes, never on the capacity of the table or on the keys that its hash function makes collide. *)
From Verif.Model Require Export Slots Visits.
From Verif.Proofs Require Import InstP SlotsP FastP.
From Verif.Props Require Export InstSpec.
Local Open Scope N_scope.

(** The counter changes nothing: without it this is the function of the model. *)
Theorem C58_same : forall dbg vs i (m : i_map dbg vs i) k,
  i_find dbg vs i m k = let* r := i_find_s dbg vs i m k in Ret (fst r).
Proof. intros. apply find_s_same. apply i_child_same. Qed.

(** The slots a search passes besides those of the nodes: the vacant one it stops at and, in the plain Bonsai trie,
    slot 0, which stays unused.  (The root of the FK tries has no slot.) *)
Definition spare_slots (i : inst) : N :=
  match i_t i with T_plain_bonsai _ _ => 2 | T_compact_bonsai _ _ _ => 1 | _ => 0 end.
(** After any history, for any key, found or not: every child or step that find looks up ([v_edges] and [v_steps] of
    C55) costs at least one slot and at most one for each node and the spare ones.  For any hash function: the upper
    bound is the worst case, in which all nodes collide. *)
Theorem C58_per_lookup : forall dbg vs i cb e ops m k, valid_inst i ->
  i_supported vs i cb e (updated ops) -> Forall (valid_op vs) ops -> i_no_trap dbg i (updated ops) ->
  i_reaches dbg vs i cb e ops m -> valid_key k -> N.of_nat (length k) < 2 ^ 64 ->
  exists r n v, i_find dbg vs i m k = Ret r /\ i_find_s dbg vs i m k = Ret (r, n) /\ i_find_v dbg vs i m k = Ret (r, v) /\
    v_edges v + v_steps v <= n <= (i_nodes dbg vs i m + spare_slots i) * (v_edges v + v_steps v) /\
    2 ^ e * v_steps v + v_edges v <= N.of_nat (length k).
Proof. exact i_find_slots. Qed.
(** So at most one for each node and the spare ones, for each byte of the key. *)
Theorem C58_find : forall dbg vs i cb e ops m k, valid_inst i ->
  i_supported vs i cb e (updated ops) -> Forall (valid_op vs) ops -> i_no_trap dbg i (updated ops) ->
  i_reaches dbg vs i cb e ops m -> valid_key k -> N.of_nat (length k) < 2 ^ 64 ->
  exists r n, i_find dbg vs i m k = Ret r /\ i_find_s dbg vs i m k = Ret (r, n) /\
    n <= N.of_nat (length k) * (i_nodes dbg vs i m + spare_slots i).
Proof.
  intros dbg vs i cb e ops m k Hvi Hsup Hv Hnt Hr Hk Hl.
  destruct (C58_per_lookup dbg vs i cb e ops m k Hvi Hsup Hv Hnt Hr Hk Hl) as (r & n & v & H1 & H2 & _ & [_ H3] & H4).
  exists r, n. split; [exact H1|]. split; [exact H2|]. etransitivity; [exact H3|]. rewrite N.mul_comm. apply N.mul_le_mono_r.
  pose proof (N.pow_nonzero 2 e ltac:(discriminate)) as Hp. clear -H4 Hp. nia.
Qed.

(** ** The hypotheses are met *)
Definition sdemo : list op :=
  [Update [1; 1; 1; 0] None; Update [2; 0] None; Update [3; 0] None; Update [4; 0] None].
Lemma sdemo_keys : Forall (valid_op 2) sdemo.
Proof.
  assert (Hk : forall s, Forall (fun c => 0 < c < 256) s -> valid_key (s ++ [0])) by (intros s Hs; exists s; auto).
  repeat constructor; [apply (Hk [1; 1; 1])|apply (Hk [2])|apply (Hk [3])|apply (Hk [4])]; repeat constructor.
Qed.
(** Every child of the root collides with every other one: the hash function is constant. *)
Definition si : inst := mkInst (T_plain_bonsai (PlainHasher (fun _ => 0)) 90) None.
Definition sf : inst := mkInst (T_plain_fkhash (PlainHasher (fun _ => 0)) 90) None.
Example sdemo_valid i : i = si \/ i = sf -> valid_inst i /\ i_supported 2 i 0 1 (updated sdemo) /\
  Forall (valid_op 2) sdemo /\ i_no_trap true i (updated sdemo).
Proof.
  assert (H : (size (alphabet (updated sdemo)) <=? 254)%nat = true) by (vm_compute; reflexivity). apply Nat.leb_le in H.
  intros [->| ->]; (split; [split; [cbn; lia|split; exact I]|]); (split; [|split; [exact sdemo_keys|]]).
  - split; [lia|]. split; [vm_compute; discriminate|]. split; [reflexivity|exact H].
  - intros Hf. discriminate Hf.
  - split; [lia|]. split; [vm_compute; discriminate|]. split; [reflexivity|exact H].
  - intros _ Hi. vm_compute in Hi. decompose [or] Hi; try discriminate; contradiction.
Qed.
(** Four nodes.  Plain Bonsai: [2; 0] is found in slot 2, after slot 0 and the root, slot 1; [4; 0] in slot 4.
    [1; 2; 0] is absent: all of slots 0 to 5.  One child is looked up, so each byte of [C58_find] can cost that much.
    The same for the step of [1; 1; 4; 0]; once it is inserted, its step is in slot 5 and its child in slot 6.
    Plain FK: 1, 3, 4, 4, 4 and 5 slots. *)
Example sdemo_counts : map (fun i : inst =>
  let* m := i_new true 2 i 0 2 in let* r := i_run true 2 i m sdemo in
  let* a := i_find_s true 2 i (snd r) [2; 0] in let* b := i_find_s true 2 i (snd r) [4; 0] in
  let* c := i_find_s true 2 i (snd r) [1; 2; 0] in let* d := i_find_s true 2 i m [2; 0] in
  let* f := i_find_s true 2 i (snd r) [1; 1; 4; 0] in let* r' := i_run true 2 i (snd r) [Update [1; 1; 4; 0] None] in
  let* g := i_find_s true 2 i (snd r') [1; 1; 4; 0] in
  Ret (i_nodes true 2 i (snd r), map (fun o : option ptr * N => (if fst o then true else false, snd o)) [a; b; c; d; f; g])) [si; sf] =
  [Ret (4, [(true, 3); (true, 5); (false, 6); (false, 0); (false, 6); (true, 13)]); Ret (4, [(true, 1); (true, 3); (false, 4); (false, 0); (false, 4); (true, 9)])].
Proof. run. Qed.

Definition slots_props := (@C58_same, @C58_per_lookup, @C58_find).
Print Assumptions slots_props.
