(** C47 for every instantiation of the map template. *)
From Verif.Proofs Require Import NulP InstAlignP FastP.
From Verif.Props Require Export AlignProps InstSpec.
Local Open Scope N_scope.

(** The offset of the value behind the first key depends on the label store only. *)
Definition inst_offset (vs : nat) (i : inst) (k : list N) : N :=
  match i_l i with
  | None => N.of_nat (length k)
  | Some _ => let n := N.of_nat (length k) - 1 in vbytes (n + N.of_nat vs) + n
  end.
Theorem C47_offset_inst : forall dbg vs i cb e k, valid_inst i -> i_supported vs i cb e [k] -> valid_key k ->
  N.of_nat (length k) + N.of_nat vs < 2 ^ 64 ->
  exists m0 m1 id, i_new dbg vs i cb (2 ^ e) = Ret m0 /\
    i_update dbg vs i m0 k = Ret (UPtr (Some (id, inst_offset vs i k)), m1).
Proof. intros. apply i_first_off; assumption. Qed.

Lemma i_short_supported vs i cb e k : valid_inst i -> (1 <= vs)%nat -> N.max 16 cb + e <= 55 ->
  k = [97; 0] \/ k = [97; 97; 0] \/ k = [97; 97; 97; 0] -> i_supported vs i cb e [k] /\ valid_key k.
Proof.
  intros Hvi Hvs Hcb Hk. destruct (short_supported vs cb e k Hvs Hcb Hk) as [(_ & _ & _ & HA) Hv].
  split; [|exact Hv]. split; [exact Hvs|]. split; [exact Hcb|]. split; [|destruct Hk as [->|[->| ->]]; exact HA].
  assert (Hn : nodes_for e [k] <= 4).
  { unfold nodes_for. rewrite nb_list by (apply NoDup_singleton).
    assert (Hl : (length k <= 4)%nat) by (destruct Hk as [->|[->| ->]]; simpl; lia).
    rewrite costs_cons. change (costs e []) with 0. unfold cost.
    assert (Hd : (N.of_nat (length k) - 1) / 2 ^ e <= N.of_nat (length k) - 1).
    { apply N.div_le_upper_bound; [apply N.pow_nonzero; discriminate|]. pose proof (N.pow_nonzero 2 e ltac:(discriminate)).
      clear -H. nia. }
    clear -Hd Hl. lia. }
  pose proof (proj1 (proj1 Hvi)) as Hmf.
  assert (Hp : 2 ^ 15 <= 2 ^ (54 - e)) by (apply N.pow_le_mono_r; [discriminate|clear -Hcb; lia]). change (2 ^ 15) with 32768 in Hp.
  apply N.le_lt_trans with 5; [clear -Hn; lia|].
  apply N.lt_le_trans with 327; [reflexivity|]. apply N.div_le_lower_bound; [discriminate|]. clear -Hp Hmf. nia.
Qed.
(** A value type with any alignment above 1 is accessed through a misaligned pointer, whatever the template arguments. *)
Theorem C47_misaligned_inst : forall dbg vs i cb e, valid_inst i -> (1 <= vs)%nat -> N.of_nat vs + 4 < 2 ^ 64 ->
  N.max 16 cb + e <= 55 ->
  exists k m0 m1 id off, valid_key k /\ (length k <= 4)%nat /\ i_new dbg vs i cb (2 ^ e) = Ret m0 /\
    i_update dbg vs i m0 k = Ret (UPtr (Some (id, off)), m1) /\ off mod 2 = 1.
Proof.
  intros dbg vs i cb e Hvi Hvs Hsm Hcb.
  assert (H : exists k, (k = [97; 0] \/ k = [97; 97; 0] \/ k = [97; 97; 97; 0]) /\ inst_offset vs i k mod 2 = 1).
  { unfold inst_offset. destruct (i_l i) as [c|]; [exact (odd_key vs)|]. exists [97; 97; 0]. split; [auto|reflexivity]. }
  destruct H as (k & Hk & Hodd). destruct (i_short_supported vs i cb e k Hvi Hvs Hcb Hk) as [Hsup Hv].
  assert (Hlen : (length k <= 4)%nat) by (destruct Hk as [->|[->| ->]]; simpl; lia).
  destruct (C47_offset_inst dbg vs i cb e k Hvi Hsup Hv ltac:(clear -Hlen Hsm; lia)) as (m0 & m1 & id & E0 & E1).
  exists k, m0, m1, id, (inst_offset vs i k). auto.
Qed.

(** A compact trie over a plain store and with a hasher of its own, and a plain trie over a compact store. *)
Definition ai1 : inst := mkInst (T_compact_bonsai std_hashers (mkDP 4 7 80 70) 60) None.
Definition ai2 : inst := mkInst (T_plain_fkhash (PlainHasher (fun x => x)) 99) (Some cs32).
Example align_inst_met : Forall (fun i => valid_inst i /\ i_supported 8 i 0 5 [[97; 98; 0]]) [ai1; ai2] /\ valid_key [97; 98; 0].
Proof.
  assert (H : (size (alphabet [[97; 98; 0]%N]) <=? 254)%nat = true) by (vm_compute; reflexivity). apply Nat.leb_le in H.
  split; [|exists [97; 98]; split; [reflexivity|repeat constructor]].
  repeat constructor; try exact H; try exact I; try (cbn; lia); try exact HashP.split_mix_ok; vm_compute; discriminate.
Qed.
Example align_inst_run : map (fun i : inst => inst_offset 8 i [97; 98; 0]) [ai1; ai2] = [3; 3] /\
  map (fun i : inst => let* m := i_new true 8 i 0 32 in let* r := i_update true 8 i m [97; 98; 0] in
    match fst r with UPtr (Some p) => Ret (snd p) | _ => UB end) [ai1; ai2] = [Ret 3; Ret 3].
Proof. split; run. Qed.

Definition align_inst_props := (@C47_offset_inst, @C47_misaligned_inst).
Print Assumptions align_inst_props.
