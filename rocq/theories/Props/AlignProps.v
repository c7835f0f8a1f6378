(** C47: value pointers are not aligned for the value type. *)
From Verif.Proofs Require Import AlignP FastP.
From Verif.Props Require Export AlignSpec.
Local Open Scope N_scope.

(** The first key of a map: the pointer returned by update lies [value_offset] bytes into a block of its own.
    A block (operator new of uint8_t[]) is aligned for every type, so the alignment of the pointer is that of
    the offset. *)
Theorem C47_offset : forall dbg vs a cb e k, supported vs cb e [k] -> valid_key k ->
  N.of_nat (length k) + N.of_nat vs < 2 ^ 64 ->
  exists m0 m1 id, a_new dbg vs a cb (2 ^ e) = Ret m0 /\
    a_update dbg vs a m0 k = Ret (UPtr (Some (id, value_offset a vs k)), m1).
Proof. intros. apply first_off; assumption. Qed.

(** Every alias, value size and parameters: some key of at most four bytes has its value at an odd offset, so a
    value type with any alignment above 1 is accessed through a misaligned pointer. *)
Lemma log2_step n : vbytes (n + 1) = vbytes n \/ vbytes (n + 2) = vbytes (n + 1).
Proof.
  unfold vbytes. destruct (N.eq_dec n 0) as [->|Hn]; [left; reflexivity|].
  destruct (N.log2_spec n ltac:(lia)) as [H1 H2]. rewrite N.pow_succ_r' in H2.
  destruct (N.lt_ge_cases (n + 1) (2 * 2 ^ N.log2 n)) as [H|H].
  - left. do 2 f_equal. apply N.log2_unique; [lia|]. rewrite N.pow_succ_r'. split; lia.
  - assert (E : n + 1 = 2 ^ (N.log2 n + 1)) by (rewrite (N.add_1_r (N.log2 n)), N.pow_succ_r'; lia).
    right. do 2 f_equal. replace (n + 2) with (2 ^ (N.log2 n + 1) + 1) by lia. rewrite E.
    assert (Hp : 0 < N.log2 n + 1) by lia. rewrite N.log2_pow2 by lia. apply N.log2_unique; [lia|].
    rewrite N.pow_succ_r'. pose proof (N.pow_gt_1 2 (N.log2 n + 1) ltac:(lia) ltac:(lia)). split; lia.
Qed.
Lemma short_supported vs cb e k : (1 <= vs)%nat -> N.max 16 cb + e <= 55 ->
  k = [97; 0] \/ k = [97; 97; 0] \/ k = [97; 97; 97; 0] -> supported vs cb e [k] /\ valid_key k.
Proof.
  intros Hvs Hcb Hk.
  assert (Hn : nodes_for e [k] <= 4).
  { unfold nodes_for. rewrite nb_list by (apply NoDup_singleton).
    assert (Hd : forall x, x / 2 ^ e <= x) by (intros x; apply N.div_le_upper_bound; [apply N.pow_nonzero; discriminate|];
      pose proof (N.pow_nonzero 2 e ltac:(discriminate)); nia).
    assert (Hl : (length k <= 4)%nat) by (destruct Hk as [->|[->| ->]]; simpl; lia).
    rewrite costs_cons. change (costs e []) with 0. unfold cost. pose proof (Hd (N.of_nat (length k) - 1)). lia. }
  split; [split; [exact Hvs|split; [exact Hcb|split]]|].
  - assert (2 ^ 15 <= 2 ^ (54 - e)) by (apply N.pow_le_mono_r; lia). change (2 ^ 15) with 32768 in *. lia.
  - assert (H : (size (alphabet [k]) <=? 254)%nat = true) by (destruct Hk as [->|[->| ->]]; vm_compute; reflexivity).
    apply Nat.leb_le, H.
  - assert (Hv : forall s, Forall (fun c => 0 < c < 256) s -> valid_key (s ++ [0])) by (intros s Hs; exists s; auto).
    destruct Hk as [->|[->| ->]].
    + apply (Hv [97]). repeat constructor.
    + apply (Hv [97; 97]). repeat constructor.
    + apply (Hv [97; 97; 97]). repeat constructor.
Qed.
Lemma odd_key vs : exists k, (k = [97; 0] \/ k = [97; 97; 0] \/ k = [97; 97; 97; 0]) /\
        (vbytes (N.of_nat (length k) - 1 + N.of_nat vs) + (N.of_nat (length k) - 1)) mod 2 = 1.
Proof.
  set (n := N.of_nat vs).
    assert (Hc : forall x y, (x + y) mod 2 = 1 \/ (x + (y + 1)) mod 2 = 1).
    { intros x y. pose proof (N.mod_lt (x + y) 2 ltac:(discriminate)).
      destruct (N.eq_dec ((x + y) mod 2) 1) as [E|E]; [left; exact E|right].
      rewrite N.add_assoc, N.add_mod by discriminate. replace ((x + y) mod 2) with 0 by lia. reflexivity. }
    destruct (log2_step (n + 1)) as [E|E].
      - destruct (Hc (vbytes (n + 1)) 1) as [H|H].
        + exists [97; 0]. split; [auto|]. simpl length. change (N.of_nat 2 - 1) with 1. rewrite (N.add_comm 1 n). exact H.
        + exists [97; 97; 0]. split; [auto|]. simpl length. change (N.of_nat 3 - 1) with 2.
          replace (2 + n) with (n + 1 + 1) by lia. rewrite E. exact H.
      - destruct (Hc (vbytes (n + 1 + 1)) 2) as [H|H].
        + exists [97; 97; 0]. split; [auto|]. simpl length. change (N.of_nat 3 - 1) with 2.
          replace (2 + n) with (n + 1 + 1) by lia. exact H.
        + exists [97; 97; 97; 0]. split; [auto|]. simpl length. change (N.of_nat 4 - 1) with 3.
          replace (3 + n) with (n + 1 + 2) by lia. rewrite E. exact H. 
Qed.
Theorem C47_misaligned : forall dbg vs a cb e, (1 <= vs)%nat -> N.of_nat vs + 4 < 2 ^ 64 -> N.max 16 cb + e <= 55 ->
  exists k m0 m1 id off, valid_key k /\ (length k <= 4)%nat /\ a_new dbg vs a cb (2 ^ e) = Ret m0 /\
    a_update dbg vs a m0 k = Ret (UPtr (Some (id, off)), m1) /\ off mod 2 = 1.
Proof.
  intros dbg vs a cb e Hvs Hsm Hcb.
  assert (H : exists k, (k = [97; 0] \/ k = [97; 97; 0] \/ k = [97; 97; 97; 0]) /\ value_offset a vs k mod 2 = 1).
  { pose proof (odd_key vs) as Hcomp.
    destruct a; try exact Hcomp; exists [97; 97; 0]; (split; [auto|reflexivity]). }
  destruct H as (k & Hk & Hodd). destruct (short_supported vs cb e k Hvs Hcb Hk) as [Hsup Hv].
  assert (Hlen : (length k <= 4)%nat) by (destruct Hk as [->|[->| ->]]; simpl; lia).
  destruct (first_off dbg vs a cb e k Hsup ltac:(lia) Hv) as (m0 & m1 & id & E0 & E1).
  exists k, m0, m1, id, (value_offset a vs k). auto.
Qed.

(** ** Concrete cases *)
(** A uint64_t behind "ab": three bytes into its block in a plain map, three (one for the size) in a compact one
    behind "ab", an even offset behind "a". *)
Example offsets : value_offset plain_bonsai_map 8 [97; 98; 0] = 3 /\
  value_offset (compact_fkhash_map cs16) 8 [97; 98; 0] = 3 /\ value_offset (compact_bonsai_map cs8) 8 [97; 0] = 2 /\
  value_offset (compact_bonsai_map cs8) 200 [97; 98; 0] = 4.
Proof. repeat split. Qed.
Example offsets_met : supported 8 0 5 [[97; 98; 0]] /\ valid_key [97; 98; 0].
Proof.
  split; [|exists [97; 98]; split; [reflexivity|repeat constructor]].
  split; [lia|]. split; [vm_compute; discriminate|]. split; [reflexivity|].
  assert (H : (size (alphabet [[97; 98; 0]%N]) <=? 254)%nat = true) by (vm_compute; reflexivity).
  apply Nat.leb_le, H.
Qed.
Example offsets_run : forall a,
  (let* m := a_new true 8 a 0 32 in let* r := a_update true 8 a m [97; 98; 0] in
   match fst r with UPtr (Some p) => Ret (snd p) | _ => UB end) = Ret 3.
Proof. intros a. rewrite a_new_fast_ok. revert a. intros [|[]|[]| |[]|[]]; run. Qed.

Definition align_props := (@C47_offset, @C47_misaligned).
Print Assumptions align_props.
