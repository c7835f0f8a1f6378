(** C11: how long pointers may be kept, for every instantiation. *)
From Verif.Proofs Require Import LifeP FastP.
From Verif.Props Require Export LifeSpec.
Local Open Scope N_scope.

(** A pointer returned for a key that is settled (at once with plain labels; with the compact labels of the FK tries
    once ChunkSize newer keys are registered) stays valid, and refers to the value of that key, through everything
    that follows; every other pointer does so until the next new key.  No history that respects this sees anything
    but the dictionary, whatever the trie, hash function, load factor and widths. *)
Theorem C11_pointer_lifetimes : forall dbg vs i cb e ops r, valid_inst i ->
  i_supported vs i cb e (hupdated ops) -> Forall (hvalid_op vs) ops -> i_no_trap dbg i (hupdated ops) ->
  life_run vs (settles_after i) (mkLife ∅ [] []) ops = Some r ->
  exists m0, i_new dbg vs i cb (2 ^ e) = Ret m0 /\
    i_yields i cb e (hupdated ops) (i_hrun dbg vs i m0 ops) (fun '(seen, m, _) =>
      seen = fst r /\ i_size dbg vs i m = N.of_nat (size (lf_dict (snd r)))).
Proof. intros. eapply i_lrun_ok; eassumption. Qed.

(** ** The hypotheses are met *)
Definition one (c : N) : list N := [c; 0].
(** compact_fkhash_map with chunks of 8 labels: nine keys; the pointer then found for the first one is written
    through after four more keys. *)
Definition cf8 : inst := inst_of (compact_fkhash_map cs8).
Definition nine : list hop := map (fun c => HUpdate (one c)) [1; 2; 3; 4; 5; 6; 7; 8; 9].
Definition ldemo : list hop :=
  nine ++ [HFind (one 1); HWrite 9 [7; 0]] ++ map (fun c => HUpdate (one c)) [10; 11; 12; 13] ++
  [HRead 9; HWrite 9 [8; 1]; HUpdate (one 1); HRead 14; HRead 9].
Example ldemo_valid : valid_inst cf8 /\ i_supported 2 cf8 0 2 (hupdated ldemo) /\ Forall (hvalid_op 2) ldemo /\
  i_no_trap true cf8 (hupdated ldemo) /\ ~ i_near_full cf8 0 2 (hupdated ldemo).
Proof.
  assert (Hk : forall c, 0 < c < 256 -> valid_key (one c)) by (intros c Hc; exists [c]; split; [reflexivity|repeat constructor; lia]).
  split. { split; [cbn; lia|]. split; [cbn; lia|]. cbn. split; exact HashP.split_mix_ok. }
  split.
  { split; [lia|]. split; [vm_compute; discriminate|]. split; [reflexivity|].
    assert (H : (size (alphabet (hupdated ldemo)) <=? 254)%nat = true) by (vm_compute; reflexivity).
    apply Nat.leb_le, H. }
  split. { repeat constructor; try (apply Hk; lia); try reflexivity. }
  split; [intros H; discriminate H|]. intros [_ H]. vm_compute in H. discriminate H.
Qed.
Example ldemo_runs :
  (let* m := i_new true 2 cf8 0 4 in let* r := i_hrun true 2 cf8 m ldemo in Ret (drop 9 (fst (fst r)))) =
    Ret [Ptr true; Written; Ptr true; Ptr true; Ptr true; Ptr true; Read [7; 0]; Written; Ptr true; Read [8; 1]; Read [8; 1]] /\
  option_map (fun r => drop 9 (fst r)) (life_run 2 (settles_after cf8) (mkLife ∅ [] []) ldemo) =
    Some [Ptr true; Written; Ptr true; Ptr true; Ptr true; Ptr true; Read [7; 0]; Written; Ptr true; Read [8; 1]; Read [8; 1]].
Proof. split; [run|vm_compute; reflexivity]. Qed.
(** ChunkSize - 1 newer keys are not enough: the next key completes the chunk and moves its labels. *)
Definition lbad : list hop :=
  map (fun c => HUpdate (one c)) [1; 2; 3; 4; 5; 6; 7; 8] ++ [HFind (one 1); HUpdate (one 9); HRead 8].
Example lbad_dangles :
  (let* m := i_new true 2 cf8 0 4 in let* r := i_hrun true 2 cf8 m lbad in Ret (fst (fst r))) = UB /\
  life_run 2 (settles_after cf8) (mkLife ∅ [] []) lbad = None.
Proof. split; [run|vm_compute; reflexivity]. Qed.

Definition life_props := (@C11_pointer_lifetimes).
Print Assumptions life_props.
