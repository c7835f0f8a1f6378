(** C49: update when memory runs out.  An allocation that fails in the hash table of the trie (or in the constructor
    a default-constructed map calls) throws std::bad_alloc and has no effect on the dictionary, for every
    instantiation, every history and every such place; one that fails for a label, or in the doubling of a Bonsai
    trie, leaves the map damaged. *)
From Verif.Proofs Require Import OomP FastP.
From Verif.Props Require Export InstSpec OomSpec.
Local Open Scope N_scope.

(** Every history in which update calls meet failures in the table, the exception is caught and the map goes on
    being used: the calls that fail do nothing, size() included, and all others observe the dictionary. *)
Theorem C49_failed_update_does_nothing : forall dbg vs i cb e ops, valid_inst i ->
  i_supported vs i cb e (updated (map fst ops)) ->
  Forall (fun '(o, f) => valid_op vs o /\ match f with Some s => in_table s | None => True end) ops ->
  i_no_trap dbg i (updated (map fst ops)) ->
  exists m0, i_new dbg vs i cb (2 ^ e) = Ret m0 /\
    i_yields i cb e (updated (map fst ops)) (i_oom_run dbg vs i m0 ops)
      (fun '(seen, _) => exists d, oom_shows vs ∅ ops seen d).
Proof. exact i_oom_run_ok. Qed.

(** With a plain label store the pointers returned before stay valid across calls that fail, whatever happens
    later: there is a choice of the failing calls for which everything read is what the dictionary holds. *)
Theorem C49_pointers : forall dbg vs i cb e ops, valid_inst i -> i_l i = None ->
  i_supported vs i cb e (kupdated ops) -> Forall (kvalid vs) ops -> i_no_trap dbg i (kupdated ops) ->
  (forall fails, kspec_run vs fails (∅, []) ops <> None) ->
  exists m0, i_new dbg vs i cb (2 ^ e) = Ret m0 /\
    i_yields i cb e (kupdated ops) (i_keep_run dbg vs i m0 ops)
      (fun '(seen, _) => exists fails s, kspec_run vs fails (∅, []) ops = Some (seen, s)).
Proof.
  intros dbg vs i cb e ops V Hl. apply i_keep_run_ok; [exact V|]. unfold i_stable. rewrite Hl. reflexivity.
Qed.

(** A default-constructed map whose constructor fails in update is still the default-constructed map. *)
Theorem C49_constructor : forall dbg vs i k, valid_key k ->
  i_update_oom dbg vs i (Some InCtor) (map_default _ _) k = Ret (NoMem, map_default _ _).
Proof.
  intros dbg vs i k Hk. unfold i_update_oom, update_oom. rewrite (check_key_ok k (proj1 (valid_okey k Hk))), bind_ret.
  destruct i as [[] []]; reflexivity.
Qed.

(** No failure: the program of Map.v, from any state. *)
Theorem C49_no_failure : forall dbg vs i m ops, i_oom_run dbg vs i m (map (fun o => (o, None)) ops) =
  let* r := i_run dbg vs i m ops in let '(seen, m) := r in Ret (map (fun '(x, n) => (Done x, n)) seen, m).
Proof. intros. apply oom_run_none. Qed.

(** A label that cannot be allocated is counted all the same: whatever the state, size() is one more. *)
Theorem C49_lost_label_counted : forall dbg vs i j m k m', m_ready _ _ m = true ->
  i_update_oom dbg vs i (Some (InLabel j)) m k = Ret (NoMem, m') -> m_size _ _ m' = add64 (m_size _ _ m) 1.
Proof. intros. eapply label_counted; eassumption. Qed.

(** ** The hypotheses are met, and failures do happen *)
Definition key_of (s : list N) : list N := s ++ [0].
Definition tech := key_of [116; 101; 99; 104].
Definition tea := key_of [116; 101; 97].
Definition x_ := key_of [120].
(** With lambda = 2 the insertion of "tea" below "tech" adds a step node and then an edge. *)
Definition demo : list oop :=
  [(Update tech (Some [1; 0; 0; 0]), None); (Update tea (Some [2; 0; 0; 0]), Some (InStep 0 0 true)); (Find tea, None);
   (Update tea None, Some (InBranch 0 false)); (Find tech, None); (Update tea (Some [3; 0; 0; 0]), Some (InBranch 5 true));
   (Find tea, None)].
Definition demo_inst : inst := mkInst (T_compact_fkhash std_hashers (mkDP 5 3 60 75) 50) None.
Lemma demo_inst_valid : valid_inst demo_inst.
Proof. split; [cbn; lia|split; [cbn; lia|]]. split; exact split_mix_ok. Qed.
Lemma demo_keys : valid_key tech /\ valid_key tea /\ valid_key x_.
Proof. split; [|split]; (eexists; split; [reflexivity|]); repeat constructor. Qed.
Example demo_valid : i_supported 4 demo_inst 0 1 (updated (map fst demo)) /\
  Forall (fun '(o, f) => valid_op 4 o /\ match f with Some s => in_table s | None => True end) demo /\
  i_no_trap true demo_inst (updated (map fst demo)) /\ ~ i_near_full demo_inst 0 1 (updated (map fst demo)).
Proof.
  destruct demo_keys as (H1 & H2 & _). split.
  { split; [lia|]. split; [vm_compute; discriminate|]. split; [reflexivity|].
    assert (H : (size (alphabet (updated (map fst demo))) <=? 254)%nat = true) by (vm_compute; reflexivity).
    apply Nat.leb_le, H. }
  split. { repeat constructor; assumption. }
  split; [intros H; discriminate H|]. intros [_ H]. vm_compute in H. discriminate H.
Qed.
(** In each instantiation over the default tries the second and the fourth call fail, and do nothing. *)
Definition demo_seen : list (oobs * N) :=
  [(Done (Saw [0;0;0;0]), 1); (NoMemory, 1); (Done (Found None), 1); (NoMemory, 1); (Done (Found (Some [1;0;0;0])), 1);
   (Done (Saw [0;0;0;0]), 2); (Done (Found (Some [3;0;0;0])), 2)].
Notation shown a ops := (let* m := a_new true 4 a 0 2 in let* r := i_oom_run true 4 (inst_of a) m ops in Ret (fst r)) (only parsing).
Example demo_runs :
  shown plain_bonsai_map demo = Ret demo_seen /\ shown (semi_compact_bonsai_map cs16) demo = Ret demo_seen /\
  shown (compact_bonsai_map cs8) demo = Ret demo_seen /\ shown plain_fkhash_map demo = Ret demo_seen /\
  shown (semi_compact_fkhash_map cs64) demo = Ret demo_seen /\ shown (compact_fkhash_map cs16) demo = Ret demo_seen.
Proof. rewrite !a_new_fast_ok. do 5 (split; [run|]). run. Qed.
(** A pointer is kept across failures. *)
Definition kdemo : list koop :=
  [Keep (HUpdate tech); Keep (HWrite 0 [1;0;0;0]); Try tea (InStep 0 0 false); Keep (HRead 0); Try tea (InBranch 0 true);
   Keep (HWrite 0 [7;0;0;0]); Try tea (InBranch 4 false); Keep (HRead 0); Keep (HFind tech); Keep (HRead 1)].
Definition kdemo_seen (a b : bool) : list kobs :=
  [Kept (Ptr true); Kept Written; Tried a; Kept (Read [1;0;0;0]); Tried b; Kept Written; Tried true; Kept (Read [7;0;0;0]);
   Kept (Ptr true); Kept (Read [7;0;0;0])].
Example kdemo_valid : i_supported 4 (inst_of plain_bonsai_map) 0 1 (kupdated kdemo) /\ Forall (kvalid 4) kdemo /\
  i_no_trap true (inst_of plain_bonsai_map) (kupdated kdemo) /\
  (forall fails, kspec_run 4 fails (∅, []) kdemo <> None) /\
  option_map fst (kspec_run 4 [true; true] (∅, []) kdemo) = Some (kdemo_seen false false).
Proof.
  destruct demo_keys as (H1 & H2 & _). split.
  { split; [lia|]. split; [vm_compute; discriminate|]. split; [reflexivity|].
    assert (H : (size (alphabet (kupdated kdemo)) <=? 254)%nat = true) by (vm_compute; reflexivity).
    apply Nat.leb_le, H. }
  split. { repeat constructor; assumption. }
  split; [intros H; discriminate H|]. split; [|vm_compute; reflexivity].
  assert (W : forall fails, match kspec_run 4 fails (∅, []) kdemo with Some _ => true | None => false end = true).
  { intros [|[] [|[] [|[] fs]]]; run. }
  intros fails E. specialize (W fails). rewrite E in W. discriminate.
Qed.
Notation kshown a ops := (let* m := a_new true 4 a 0 2 in let* r := i_keep_run true 4 (inst_of a) m ops in Ret (fst r)) (only parsing).
Example kdemo_runs : kshown plain_bonsai_map kdemo = Ret (kdemo_seen false false) /\
  kshown plain_fkhash_map kdemo = Ret (kdemo_seen false false).
Proof. split; run. Qed.

(** ** The other failures damage the map *)
(** The label of "tea" cannot be allocated.  size() counts the key; with the plain and the Bonsai label stores looking
    it up then runs into the missing label (an assertion, a null pointer without assertions); with
    compact_fkhash_nlm every later label is taken for that of the key before it: find("tea") returns the value of
    "x", and find("x") reads outside the labels. *)
Definition lost (ops : list oop) : list oop :=
  (Update tech (Some [1; 0; 0; 0]), None) :: (Update tea (Some [2; 0; 0; 0]), Some (InLabel 0)) :: ops.
Definition lost_seen (seen : list (oobs * N)) : list (oobs * N) := (Done (Saw [0;0;0;0]), 1) :: (NoMemory, 2) :: seen.
Definition write_x : oop := (Update x_ (Some [9; 0; 0; 0]), None).
Theorem C49_lost_label : forall f, In f [Find tea; Update tea None] ->
  shown plain_bonsai_map (lost [(f, None)]) = AssertFail /\
  shown (semi_compact_bonsai_map cs16) (lost [(f, None)]) = AssertFail /\
  shown (compact_bonsai_map cs16) (lost [(f, None)]) = AssertFail /\
  shown plain_fkhash_map (lost [(f, None)]) = AssertFail /\
  shown (semi_compact_fkhash_map cs16) (lost [write_x; (Find tea, None)]) =
    Ret (lost_seen [(Done (Saw [0;0;0;0]), 3); (Done (Found (Some [9;0;0;0])), 3)]) /\
  shown (semi_compact_fkhash_map cs16) (lost [write_x; (Find x_, None)]) = UB /\
  shown (compact_fkhash_map cs16) (lost [write_x; (Find tea, None)]) =
    Ret (lost_seen [(Done (Saw [0;0;0;0]), 3); (Done (Found (Some [9;0;0;0])), 3)]) /\
  shown (compact_fkhash_map cs16) (lost [write_x; (Find x_, None)]) = UB.
Proof. intros f [<-|[<-|[]]]; rewrite !a_new_fast_ok; do 7 (split; [run|]); run. Qed.
(** The dummy label of a step node of an FK trie cannot be allocated.  The dictionary is as it was; but the next
    key that is added runs into an assertion, or (compact_fkhash_nlm) its label is taken for another one's and it
    cannot be looked up. *)
Definition undone (ops : list oop) : list oop :=
  (Update tech (Some [1; 0; 0; 0]), None) :: (Update tea None, Some (InDummy 0 0)) :: ops.
Definition undone_seen (seen : list (oobs * N)) : list (oobs * N) := (Done (Saw [0;0;0;0]), 1) :: (NoMemory, 1) :: seen.
Theorem C49_lost_dummy :
  shown plain_fkhash_map (undone [(Find tea, None); (Find tech, None)]) =
    Ret (undone_seen [(Done (Found None), 1); (Done (Found (Some [1;0;0;0])), 1)]) /\
  shown plain_fkhash_map (undone [write_x]) = AssertFail /\
  shown (semi_compact_fkhash_map cs16) (undone [(Find tea, None); write_x]) =
    Ret (undone_seen [(Done (Found None), 1); (Done (Saw [0;0;0;0]), 2)]) /\
  shown (semi_compact_fkhash_map cs16) (undone [write_x; (Find x_, None)]) = UB /\
  shown (compact_fkhash_map cs16) (undone [(Find tea, None); write_x]) =
    Ret (undone_seen [(Done (Found None), 1); (Done (Saw [0;0;0;0]), 2)]) /\
  shown (compact_fkhash_map cs16) (undone [write_x; (Find x_, None)]) = UB.
Proof. rewrite !a_new_fast_ok. do 5 (split; [run|]). run. Qed.

(** The doubling of a Bonsai trie cannot allocate the new table (here with MaxFactor 1: 655 nodes): the new edge
    stays, without a label, and the trie is full.  Looking that key up runs into the missing label; another new key
    seems to be inserted, but size() does not count it, its value is not zero, and it is not found afterwards. *)
Definition num (i : nat) : list N := key_of [N.of_nat i / 200 + 1; N.of_nat i mod 200 + 1].
Definition filled (ops : list oop) : list oop :=
  map (fun i => (Update (num i) None, None)) (seq 0 653) ++ (Update (num 653) None, Some (InDouble 1)) :: ops.
Definition small_inst : inst := mkInst (T_plain_bonsai vigna_hasher 1) None.
Notation end_of ops := (let* m := i_new true 4 small_inst 0 1 in let* r := i_oom_run true 4 small_inst m ops in
  Ret (drop 653 (fst r))) (only parsing).
Theorem C49_lost_doubling :
  end_of (filled [(Find (num 653), None)]) = AssertFail /\
  end_of (filled [(Update (num 654) None, None); (Find (num 654), None)]) =
    Ret [(NoMemory, 653); (Done (Saw [1;0;0;0]), 653); (Done (Found None), 653)].
Proof. split; run. Qed.

(** One query for all theorems of this file. *)
Definition oom_props := (@C49_failed_update_does_nothing, @C49_pointers, @C49_constructor, @C49_no_failure,
  @C49_lost_label_counted, @C49_lost_label, @C49_lost_dummy, @C49_lost_doubling).
Print Assumptions oom_props.
