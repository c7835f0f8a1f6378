(** Histories of the two auxiliary tables. *)
From Verif.Props Require Export TableSpec.
From Verif.Model Require Export StdTable CompactHashTable.
From Verif.Proofs Require Export ChtSetP StdTableP MaxSizeP.
Local Open Scope N_scope.

Section hist.
  Context {T : Type} (set : T -> N -> N -> outcome (bool * T)) (get : T -> N -> outcome N) (sz : T -> N).
  Context (key val : N -> Prop) (limit : N) (I : T -> gmap N N -> Prop).
  Hypothesis Hset : forall t m k v, I t m -> key k -> val v -> N.of_nat (size m) < limit ->
    exists t', set t k v = Ret (bool_decide (m !! k = None), t') /\ I t' (<[k := v]> m).
  Hypothesis Hget : forall t m k, I t m -> key k -> get t k = Ret (default no_value (m !! k)).
  Hypothesis Hsz : forall t m, I t m -> sz t = N.of_nat (size m).
  Lemma trun_ok ops : forall t m, I t m -> thistory key val limit m ops ->
    exists t', trun set get sz t ops = Ret (tspec m ops, t') /\ I t' (contents m ops).
  Proof.
    induction ops as [|o ops IH]; intros t m Hi Hh.
    - exists t. split; [reflexivity|exact Hi].
    - destruct Hh as [Ho Hh].
      assert (Hc : exists t1, tcall set get sz t o = Ret (tanswer m o, t1) /\ I t1 (tstep m o)).
      { destruct o as [k v|k|]; cbn [tcall tanswer tstep tallowed] in *.
        - destruct Ho as (Hk & Hv & Hl). destruct (Hset t m k v Hi Hk Hv Hl) as (t1 & E & Hi1).
          rewrite E, bind_ret. exists t1. split; [reflexivity|exact Hi1].
        - rewrite (Hget t m k Hi Ho), bind_ret. exists t. split; [|exact Hi]. destruct (m !! k); reflexivity.
        - rewrite (Hsz t m Hi). exists t. split; [reflexivity|exact Hi]. }
      destruct Hc as (t1 & E1 & Hi1). destruct (IH t1 (tstep m o) Hi1 Hh) as (t2 & E2 & Hi2).
      exists t2. cbn [trun]. rewrite E1, bind_ret. cbn [snd]. rewrite E2, bind_ret. split; [reflexivity|exact Hi2].
  Qed.
End hist.

Section hash.
Context {HF : plain_hasher} {HB : bij_hasher} {HO : bij_ok HB}.
Lemma st_size_spec mf t m : st_ok mf t m -> st_size t = N.of_nat (size m).
Proof. intros [[-> ->]|[b Hi]]; [rewrite map_size_empty; reflexivity|apply (sr_size b t m (proj1 Hi))]. Qed.

Lemma st_run mf t m ops : 1 <= mf <= 99 -> st_ok mf t m ->
  thistory (fun k => k <> UINT64_MAX) (fun _ => True) (max_size_of (2 ^ 57) mf) m ops ->
  exists t', trun (st_set mf) st_get st_size t ops = Ret (tspec m ops, t') /\ st_ok mf t' (contents m ops).
Proof.
  intros Hmf Hi Hh. refine (trun_ok _ _ _ _ _ _ (st_ok mf) _ _ _ ops t m Hi Hh).
  - intros t0 m0 k v H0 Hk _ Hl. apply st_set_spec; assumption.
  - intros t0 m0 k H0 Hk. apply (st_get_spec mf); assumption.
  - intros t0 m0 H0. apply (st_size_spec mf), H0.
Qed.
Lemma ch_run vb mf u t m ops : 1 <= vb -> 1 <= mf <= 99 -> fits vb u -> ch_inv vb mf u t m ->
  thistory (fun k => k < 2 ^ u) (fun v => v < N.ones vb) (max_size_of (2 ^ u) mf) m ops ->
  exists t', trun (ch_set vb mf) (ch_get vb) ch_size t ops = Ret (tspec m ops, t') /\ ch_inv vb mf u t' (contents m ops).
Proof.
  intros Hvb Hmf Hu Hi Hh. refine (trun_ok _ _ _ _ _ _ (ch_inv vb mf u) _ _ _ ops t m Hi Hh).
  - intros t0 m0 k v H0 Hk Hv Hl. unfold ch_set. change 64%nat with (S (S 62)). apply (set_spec vb mf Hvb Hmf u Hu); assumption.
  - intros t0 m0 k H0 Hk. apply (inv_get vb mf Hvb Hmf u Hu); assumption.
  - intros t0 m0 H0. apply (inv_size vb mf u), H0.
Qed.
End hash.
Lemma thistory_weaken (key key' val val' : N -> Prop) limit limit' :
  (forall k, key k -> key' k) -> (forall v, val v -> val' v) -> limit <= limit' ->
  forall ops m, thistory key val limit m ops -> thistory key' val' limit' m ops.
Proof.
  intros Hk Hv Hl. induction ops as [|o ops IH]; intros m; [tauto|]. cbn [thistory]. intros [Ho Hr].
  split; [|apply IH, Hr]. destruct o; cbn [tallowed] in *; [|apply Hk, Ho|exact I].
  destruct Ho as (A & B & C). repeat split; [apply Hk, A|apply Hv, B|lia].
Qed.

Definition ms_ok4 (b f : N) : bool := 2 ^ b * (f + 1) / 100 <=? max_size_of (2 ^ b) (f + 1) + 16.
Lemma ms_check4_true : check_below 58 (fun b => check_below 99 (ms_ok4 b)) = true.
Proof. vm_compute. reflexivity. Qed.
(** The load limit is within 16 of the exact percentage. *)
Lemma max_size_near b f : b <= 57 -> 1 <= f <= 99 -> 2 ^ b * f / 100 - 16 <= max_size_of (2 ^ b) f.
Proof.
  intros Hb Hf. assert (H1 : b < N.of_nat 58) by lia. assert (H2 : f - 1 < N.of_nat 99) by lia.
  pose proof (check_below_sound 99 (ms_ok4 b) (f - 1)
           (check_below_sound 58 (fun b => check_below 99 (ms_ok4 b)) b ms_check4_true H1) H2) as H.
  unfold ms_ok4 in H. replace (f - 1 + 1) with f in H by lia. apply N.leb_le in H. lia.
Qed.
