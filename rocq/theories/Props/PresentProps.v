(** C50: update of a key that is present changes nothing a user can see; and pointers into any map, also one with
    compact labels, stay valid until a new key is added. *)
From Verif.Proofs Require Import PresentP FastP.
From Verif.Props Require Export PresentSpec.
Local Open Scope N_scope.

(** After any history, update of a registered key returns the pointer that find returns.  The map is unchanged,
    except that a trie of the FK kind may enlarge its hash table: then number of keys, trie nodes, labels and
    values are the same. *)
Theorem C50_update_present : forall dbg vs i cb e ops m0 xs m k, valid_inst i ->
  i_supported vs i cb e (updated ops) -> Forall (valid_op vs) ops -> i_no_trap dbg i (updated ops) ->
  i_new dbg vs i cb (2 ^ e) = Ret m0 -> i_run dbg vs i m0 ops = Ret (xs, m) -> In k (updated ops) ->
  exists p, i_find dbg vs i m k = Ret (Some p) /\
    i_yields i cb e (updated ops) (i_update dbg vs i m k) (fun '(r, m') => r = UPtr (Some p) /\
      (m' = m \/
       (is_fkhash i = true /\ i_capa_size dbg vs i m < i_capa_size dbg vs i m' /\
        i_size dbg vs i m' = i_size dbg vs i m /\ i_nodes dbg vs i m' = i_nodes dbg vs i m /\
        i_labels dbg vs i m' = i_labels dbg vs i m))).
Proof. intros. eapply i_update_present; eassumption. Qed.

(** More generally, for any byte range at all (a valid key or not, for instance one with embedded NULs, which find may
    mistake for another key, C10): if find returns a pointer, update returns the same pointer and inserts nothing. *)
Theorem C50_update_as_find : forall dbg vs i cb e ops m0 xs m k p, valid_inst i ->
  i_supported vs i cb e (updated ops) -> Forall (valid_op vs) ops -> i_no_trap dbg i (updated ops) ->
  i_new dbg vs i cb (2 ^ e) = Ret m0 -> i_run dbg vs i m0 ops = Ret (xs, m) -> i_find dbg vs i m k = Ret (Some p) ->
  i_yields i cb e (updated ops) (i_update dbg vs i m k) (fun '(r, m') => r = UPtr (Some p) /\
    (m' = m \/
     (is_fkhash i = true /\ i_capa_size dbg vs i m < i_capa_size dbg vs i m' /\
      i_size dbg vs i m' = i_size dbg vs i m /\ i_nodes dbg vs i m' = i_nodes dbg vs i m /\
      i_labels dbg vs i m' = i_labels dbg vs i m))).
Proof. intros. eapply i_update_as_find; eassumption. Qed.

(** Every history that keeps pointers and uses them until the next new key observes the dictionary: find, reads,
    writes and updates of present keys in between invalidate nothing. *)
Theorem C50_pointers : forall dbg vs i cb e ops r, valid_inst i ->
  i_supported vs i cb e (hupdated ops) -> Forall (hvalid_op vs) ops -> i_no_trap dbg i (hupdated ops) ->
  pspec_run vs (∅, []) ops = Some r ->
  exists m0, i_new dbg vs i cb (2 ^ e) = Ret m0 /\
    i_yields i cb e (hupdated ops) (i_hrun dbg vs i m0 ops) (fun '(seen, _, _) => seen = fst r).
Proof. intros. eapply i_prun_ok; eassumption. Qed.

(** ** The hypotheses are met *)
Definition key_of (s : list N) : list N := s ++ [0].
(** The compact alias with chunks of 8 labels: two keys in one chunk, pointers used across updates of both. *)
Definition demo_inst : inst := inst_of (compact_fkhash_map cs8).
Definition hdemo : list hop :=
  [HUpdate (key_of [116; 101; 99; 104]); HWrite 0 [1; 0; 0; 0];
   HUpdate (key_of [116; 101; 97]); HFind (key_of [116; 101; 99; 104]); HUpdate (key_of [116; 101; 97]);
   HWrite 3 [2; 0; 0; 0]; HUpdate (key_of [116; 101; 99; 104]); HRead 1; HRead 2; HWrite 2 [3; 0; 0; 0]; HRead 4; HRead 3].
Example hdemo_valid : valid_inst demo_inst /\ i_supported 4 demo_inst 0 1 (hupdated hdemo) /\ Forall (hvalid_op 4) hdemo /\
  i_no_trap true demo_inst (hupdated hdemo) /\ ~ i_near_full demo_inst 0 1 (hupdated hdemo).
Proof.
  assert (Hk : forall s, Forall (fun c => 0 < c < 256) s -> valid_key (key_of s)) by (intros s Hs; exists s; auto).
  split. { split; [cbn; lia|]. split; [cbn; lia|]. cbn. split; exact split_mix_ok. }
  split.
  { split; [lia|]. split; [vm_compute; discriminate|]. split; [reflexivity|].
    assert (H : (size (alphabet (hupdated hdemo)) <=? 254)%nat = true) by (vm_compute; reflexivity).
    apply Nat.leb_le, H. }
  split. { repeat constructor; try (apply Hk; repeat constructor); try reflexivity. }
  split; [intros H; discriminate H|]. intros [_ H]. vm_compute in H. discriminate H.
Qed.
Example hdemo_runs :
  (let* m := i_new true 4 demo_inst 0 2 in let* r := i_hrun true 4 demo_inst m hdemo in Ret (fst (fst r))) =
    Ret [Ptr true; Written; Ptr true; Ptr true; Ptr true; Written; Ptr true; Read [2;0;0;0]; Read [1;0;0;0]; Written;
         Read [3;0;0;0]; Read [2;0;0;0]] /\
  option_map fst (pspec_run 4 (∅, []) hdemo) =
    Some [Ptr true; Written; Ptr true; Ptr true; Ptr true; Written; Ptr true; Read [2;0;0;0]; Read [1;0;0;0]; Written;
          Read [3;0;0;0]; Read [2;0;0;0]] /\
  pspec_run 4 (∅, []) (hdemo ++ [HUpdate (key_of []); HRead 3]) = None.
Proof. split; [run|]. split; vm_compute; reflexivity. Qed.

(** The table of a trie of the FK kind can grow: with load factor 1 it takes 655 of the 65536 slots, and the next
    update doubles it although its key is present. *)
Definition fk1 : inst := mkInst (T_plain_fkhash vigna_hasher 1) None.
Fixpoint letters (n : nat) (c : N) : list N := match n with O => [] | S n => c :: letters n (c + 1) end.
Definition pairs : list (list N) := flat_map (fun a => map (fun b => [a; b; 0]) (letters 131 1)) (letters 5 1).
Definition full : list op := map (fun k => Update k None) pairs.
Example full_grows :
  (let* m := i_new true 4 fk1 0 4 in
   let* r := i_run true 4 fk1 m full in
   let m := snd r in
   let* u := i_update true 4 fk1 m [3; 3; 0] in
   Ret (i_size true 4 fk1 m, i_capa_size true 4 fk1 m, i_size true 4 fk1 (snd u), i_capa_size true 4 fk1 (snd u))) =
  Ret (655, 65536, 655, 131072).
Proof. run. Qed.
Example full_valid : valid_inst fk1 /\ i_supported 4 fk1 0 2 (updated full) /\ Forall (valid_op 4) full /\
  i_no_trap true fk1 (updated full) /\ In [3; 3; 0] (updated full).
Proof.
  assert (Eu : updated full = pairs).
  { unfold full. generalize pairs. intros l. unfold updated. rewrite flat_map_concat_map, map_map. induction l as [|k l IH]; [reflexivity|].
    simpl. f_equal. exact IH. }
  assert (Hin : In [3; 3; 0] pairs) by (apply elem_of_list_In, (bool_decide_eq_true_1 _); vm_compute; reflexivity).
  assert (Hk : forallb (fun k => match k with [a; b; 0] => (0 <? a) && (a <? 256) && (0 <? b) && (b <? 256) | _ => false end) pairs = true)
    by (vm_compute; reflexivity).
  split. { split; [cbn; lia|]. split; exact I. }
  rewrite Eu. split.
  { split; [lia|]. split; [vm_compute; discriminate|]. split; [vm_compute; reflexivity|].
    assert (H : (size (alphabet pairs) <=? 254)%nat = true) by (vm_compute; reflexivity). apply Nat.leb_le, H. }
  rewrite forallb_forall in Hk. split.
  { unfold full. apply Forall_map, List.Forall_forall. intros k Hk'. specialize (Hk k Hk').
    destruct k as [|x [|y [|[|] [|]]]]; try discriminate. apply andb_prop in Hk as [Hk H4]. apply andb_prop in Hk as [Hk H3].
    apply andb_prop in Hk as [H1 H2]. apply N.ltb_lt in H1, H2, H3, H4.
    split; [|split; [reflexivity|exact I]]. exists [x; y]. split; [reflexivity|]. repeat constructor; assumption. }
  split; [|exact Hin]. intros _ H. specialize (Hk [0] H). discriminate Hk.
Qed.

(** One query for all theorems of this file. *)
Definition present_props := (@C50_update_present, @C50_update_as_find, @C50_pointers).
Print Assumptions present_props.
