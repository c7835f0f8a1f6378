(** Every alias meets the store contract. *)
From Verif.Proofs Require Export MapHistP PlainOpsP CompactOpsP PlainNlmP CompactBonsaiNlmP CompactFkNlmP.
From Verif.Model Require Export Aliases.
From Verif.Props Require Export ReachSpec.
Local Open Scope N_scope.
Local Existing Instance vigna_hasher.
Local Existing Instance std_hashers.

(** The reservation: an alias with a compact trie may fail an assertion if T nodes can saturate the
    displacement table of a trie with 2^B0 slots. *)
Definition alias_lim (a : alias) (B0 T : N) : lims := mkLim (exact_alias a = false /\ saturates dp_std B0 T) T B0.
(** What stays true of the labels of an alias: positions of FK-hash stores; every value pointer of a plain store, and
    those of the full groups of a compact FK-hash store. *)
Definition a_fk (a : alias) : bool :=
  match a with plain_fkhash_map | semi_compact_fkhash_map _ | compact_fkhash_map _ => true | _ => false end.
Definition a_frz (a : alias) (n x : N) : Prop :=
  match a with
  | plain_bonsai_map | plain_fkhash_map => True
  | semi_compact_bonsai_map _ | compact_bonsai_map _ => False
  | semi_compact_fkhash_map c | compact_fkhash_map c => x / cs_val c < (n - 1) / cs_val c
  end.
Record pack (dbg : bool) (vs : nat) (a : alias) (e B0 T : N) := mkPack {
  pk_srep : N -> tT (a_trie dbg a) -> nT (a_nlm vs a) -> locmap -> labmap -> Prop;
  pk_sfresh : N -> tT (a_trie dbg a) -> nT (a_nlm vs a) -> Prop;
  pk_npt : nT (a_nlm vs a) -> N -> ptr -> Prop;
  pk_ok : (1 <= vs)%nat -> 16 <= B0 -> T <= node_limit 90 (8 + e) ->
    store_ok (a_trie dbg a) (a_nlm vs a) (alias_lim a B0 T) 90 (8 + e) (traps dbg a) (tok (a_fk a) (a_frz a) pk_npt) pk_srep pk_sfresh pk_npt }.

Lemma mf90 : 1 <= 90 <= 99. Proof. lia. Qed.
Lemma chunk_width c : width_ok (cs_val c).
Proof. destruct c; unfold width_ok; simpl; auto. Qed.
Lemma sb_pos e : 1 <= 8 + e. Proof. lia. Qed.
Lemma cb_lim_ok e c B0 T : 16 <= B0 -> T <= node_limit 90 (8 + e) ->
  bonsai_ok (cb_ops dp_std 90) (alias_lim (compact_bonsai_map c) B0 T) 90 (8 + e)
    (fun b t loc => B0 <= b /\ cb_rep dp_std 90 b (8 + e) t loc) (fun b t => B0 <= b /\ cb_fresh dp_std 90 b (8 + e) t).
Proof.
  intros HB HT. pose proof (cb_ok dp_std dp_std_ok 90 (8 + e) mf90 B0 T HB HT) as H.
  assert (HL : sat_lim dp_std 90 B0 T -> alias_lim (compact_bonsai_map c) B0 T) by (intros [? _]; split; [reflexivity|assumption]).
  destruct H as [F1 F2 F3 F4 F5 F6 F7 F8 F9 F10 F11 F12 F13 F14 Fadd Fold F15 Fexp]; split; auto.
  - intros b t loc p v s H1 H2 H3 H4 H5. eapply wpx_limit; [exact HL|]. exact (Fadd _ _ _ _ _ _ H1 H2 H3 H4 H5).
  - intros b t loc H1 H2 H3. eapply wpx_limit; [exact HL|]. exact (Fexp _ _ _ H1 H2 H3).
Qed.
Lemma cf_lim_ok e c B0 T : 16 <= B0 -> T <= node_limit 90 (8 + e) ->
  fkhash_ok (cf_ops dp_std 90) (alias_lim (compact_fkhash_map c) B0 T) 90 (8 + e) false
    (fun b t loc => B0 <= b /\ cf_rep dp_std 90 b (8 + e) t loc) (fun b t => B0 <= b /\ cf_fresh dp_std 90 b (8 + e) t).
Proof.
  intros HB HT. pose proof (cf_ok dp_std dp_std_ok 90 (8 + e) mf90 B0 T HB HT) as H.
  assert (HL : sat_lim dp_std 90 B0 T -> alias_lim (compact_fkhash_map c) B0 T) by (intros [? _]; split; [reflexivity|assumption]).
  destruct H as [F1 F2 F3 F4 F5 F6 F7 F8 F9 F10 F11 F12 F13 F14 F15 Fadd Fold]; split; auto.
  - intros b t loc p v s H1 H2 H3 H4 H5. eapply wpx_limit; [exact HL|]. exact (Fadd _ _ _ _ _ _ H1 H2 H3 H4 H5).
  - intros b t loc p v s y H1 H2 H3 H4 H5 H6. eapply wpx_limit; [exact HL|]. exact (Fold _ _ _ _ _ _ _ H1 H2 H3 H4 H5 H6).
Qed.
Definition alias_pack (dbg : bool) (vs : nat) (a : alias) (e B0 T : N) : pack dbg vs a e B0 T.
Proof.
  destruct a as [|c|c| |c|c].
  - refine (mkPack dbg vs plain_bonsai_map e B0 T _ _ _ (fun _ HB HT => _)).
    exact (bonsai_store_ok (pb_ops 90) (pbn_ops vs) _ 90 (8 + e) _ _ _ _ _ (pb_ok 90 (8 + e) mf90 _ T B0 HT (sb_pos e)) (pbn_ok vs)).
  - refine (mkPack dbg vs (semi_compact_bonsai_map c) e B0 T _ _ _ (fun _ HB HT => _)).
    exact (bonsai_store_ok (pb_ops 90) (cbn_ops (cs_val c) vs) _ 90 (8 + e) _ _ _ _ _ (pb_ok 90 (8 + e) mf90 _ T B0 HT (sb_pos e))
      (cbn_ok (cs_val c) vs (chunk_width c))).
  - refine (mkPack dbg vs (compact_bonsai_map c) e B0 T _ _ _ (fun _ HB HT => _)).
    exact (bonsai_store_ok (cb_ops dp_std 90) (cbn_ops (cs_val c) vs) _ 90 (8 + e) _ _ _ _ _
      (cb_lim_ok e c B0 T HB HT) (cbn_ok (cs_val c) vs (chunk_width c))).
  - refine (mkPack dbg vs plain_fkhash_map e B0 T _ _ _ (fun _ HB HT => _)).
    exact (fkhash_store_ok (pf_ops dbg 90) (pfn_ops vs) _ 90 (8 + e) dbg _ _ _ _ _ mf90 (pf_ok 90 (8 + e) mf90 _ T B0 dbg HT) (pfn_ok vs)).
  - refine (mkPack dbg vs (semi_compact_fkhash_map c) e B0 T _ _ _ (fun Hvs HB HT => _)).
    exact (fkhash_store_ok (pf_ops dbg 90) (cfn_ops (cs_val c) vs) _ 90 (8 + e) dbg _ _ _ _ _ mf90 (pf_ok 90 (8 + e) mf90 _ T B0 dbg HT)
      (cfn_ok (cs_val c) vs (chunk_width c) Hvs)).
  - refine (mkPack dbg vs (compact_fkhash_map c) e B0 T _ _ _ (fun Hvs HB HT => _)).
    exact (fkhash_store_ok (cf_ops dp_std 90) (cfn_ops (cs_val c) vs) _ 90 (8 + e) false _ _ _ _ _ mf90
      (cf_lim_ok e c B0 T HB HT) (cfn_ok (cs_val c) vs (chunk_width c) Hvs)).
Defined.
Lemma a_vs vs a : n_vs (a_nlm vs a) = vs. Proof. destruct a; reflexivity. Qed.
Lemma a_stable vs a npt : stable_alias a = true -> pts_stable (@tok (a_nlm vs a) (a_fk a) (a_frz a) npt) npt.
Proof. destruct a; try discriminate; intros _; apply tok_stable. Qed.
