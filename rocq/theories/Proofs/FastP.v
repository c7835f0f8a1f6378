(** Evaluating the constructor of compact_fkhash_trie at its smallest capacity: filling 2^16 cells of 16 bits
    with 2^16 - 1 one by one is slow in Coq; the same vector is filled here word by word. *)
From Verif.Model Require Export Aliases.
From Verif.Proofs Require Import BaseP.
Local Open Scope N_scope.
Local Existing Instance vigna_hasher.
Local Existing Instance std_hashers.

(** Equations between closed programs are checked by the kernel's virtual machine. *)
Ltac run := match goal with |- _ = ?r => vm_cast_no_check (eq_refl r) end.

Definition cv_ones : outcome compact_vector :=
  let* ch := for_range 0 16384 (fun i ch => vset ch i 0xFFFFFFFFFFFFFFFF) (vnew 16384 0) in
  Ret (mkCV ch 65536 65535 16).
Lemma cv_ones_ok : cv_new_init 65536 16 65535 = cv_ones.
Proof. run. Qed.
Definition cv_init_fast (size width init : N) : outcome compact_vector :=
  if (size =? 65536) && (width =? 16) && (init =? 65535) then cv_ones else cv_new_init size width init.
Lemma cv_init_fast_ok size width init : cv_new_init size width init = cv_init_fast size width init.
Proof.
  unfold cv_init_fast. destruct (N.eqb_spec size 65536) as [->|]; [|reflexivity].
  destruct (N.eqb_spec width 16) as [->|]; [|reflexivity].
  destruct (N.eqb_spec init 65535) as [->|]; [|reflexivity]. exact cv_ones_ok.
Qed.
Definition cf_new_fast (P : dsp_params) (mf capa_bits symb_bits cht_capa_bits : N) : outcome cf_trie :=
  let* dt := dt_new P capa_bits symb_bits cht_capa_bits in
  let c := dt_capa dt in
  let* ids := cv_init_fast (p2_size c) (p2_bits c) (p2_mask c) in
  Ret (mkCF dt ids 0 (max_size_of (p2_size c) mf)).
Lemma cf_new_fast_ok P mf cb sb chtb : cf_new P mf cb sb chtb = cf_new_fast P mf cb sb chtb.
Proof.
  unfold cf_new, cf_new_fast. destruct (dt_new P cb sb chtb) as [dt| | | |]; try reflexivity. cbn [bind].
  rewrite cv_init_fast_ok. reflexivity.
Qed.
Definition a_trie_fast (dbg : bool) (a : alias) (capa_bits symb_bits : N) : outcome (tT (a_trie dbg a)) :=
  match a with
  | compact_fkhash_map _ => cf_new_fast dp_std 90 capa_bits symb_bits 0
  | a => t_new (a_trie dbg a) capa_bits symb_bits
  end.
Definition a_new_fast (dbg : bool) (vs : nat) (a : alias) (capa_bits lambda : N) : outcome (a_map dbg vs a) :=
  let* _ := throw_if (negb (is_power2 lambda)) ExLambda in
  let* cl := ceil_log2 lambda in
  let* trie := a_trie_fast dbg a capa_bits (8 + cl) in
  let* nlm := n_new (a_nlm vs a) (p2_bits (t_capa (a_trie dbg a) trie)) in
  let* codes := vset (vnew 256 255) 0 0 in
  Ret (mkMap _ _ true lambda trie nlm codes 1 0).
Lemma a_new_fast_ok dbg vs a cb lam : a_new dbg vs a cb lam = a_new_fast dbg vs a cb lam.
Proof.
  unfold a_new, map_new, a_new_fast. destruct (throw_if _ _) as [[]| | | |]; try reflexivity. cbn [bind].
  destruct (ceil_log2 lam) as [cl| | | |]; try reflexivity. cbn [bind].
  replace (a_trie_fast dbg a cb (8 + cl)) with (t_new (a_trie dbg a) cb (8 + cl)); [reflexivity|].
  destruct a as [|c|c| |c|c]; try reflexivity. apply cf_new_fast_ok.
Qed.
