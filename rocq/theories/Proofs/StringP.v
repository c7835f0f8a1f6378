(** Keys given as strings. *)
From Verif.Proofs Require Export InstP.
From Verif.Model Require Export ApiString.
Local Open Scope N_scope.

Definition key_op (o : sop) : op :=
  match o with SUpdate t w => Update (string_of t ++ [0]) w | SFind t => Find (string_of t ++ [0]) end.

Lemma range_of_cstring_ok buf : In 0 buf -> range_of_cstring buf = Ret (before_nul buf ++ [0]).
Proof.
  induction buf as [|c buf IH]; intros H; [destruct H|]. cbn [range_of_cstring].
  destruct (N.eqb_spec c 0) as [->|Hc]; [reflexivity|]. destruct H as [H|H]; [congruence|].
  rewrite (IH H). cbn. destruct c; [congruence|reflexivity].
Qed.
Lemma range_of_cstring_ub buf : ~ In 0 buf -> range_of_cstring buf = UB.
Proof.
  induction buf as [|c buf IH]; intros H; [reflexivity|]. cbn [range_of_cstring].
  destruct (N.eqb_spec c 0) as [->|Hc]; [exfalso; apply H; left; reflexivity|].
  rewrite IH by (intros H2; apply H; right; exact H2). reflexivity.
Qed.
Lemma before_nul_ok buf : Forall (fun c => c < 256) buf -> Forall (fun c => 0 < c < 256) (before_nul buf).
Proof.
  induction buf as [|c buf IH]; intros H; [constructor|]. apply Forall_cons_1 in H as [Hc H]. cbn.
  destruct c as [|p]; [constructor|]. constructor; [lia|]. apply IH, H.
Qed.
Lemma range_of_ok t : valid_text t -> range_of t = Ret (string_of t ++ [0]).
Proof. destruct t as [s|buf]; [reflexivity|]. intros [_ H]. apply range_of_cstring_ok, H. Qed.
Lemma string_of_ok t : valid_text t -> valid_key (string_of t ++ [0]).
Proof.
  intros H. exists (string_of t). split; [reflexivity|]. destruct t as [s|buf]; [exact H|]. apply before_nul_ok, H.
Qed.

Lemma text_run dbg vs i ops : Forall (valid_sop vs) ops -> forall m,
  i_text_run dbg vs i m ops = i_run dbg vs i m (map key_op ops).
Proof.
  intros Hv. induction Hv as [|o ops Ho Hv IH]; intros m; [reflexivity|].
  unfold i_run in *. cbn [map api_run i_text_run].
  assert (E : i_text_step dbg vs i m o = api_step dbg _ _ m (key_op o)).
  { destruct o as [t w|t]; destruct Ho as [Ht _]; cbn [i_text_step key_op]; rewrite (range_of_ok t Ht), bind_ret; reflexivity. }
  rewrite E. destruct (api_step dbg _ _ m (key_op o)) as [[x m']| | | |]; [|reflexivity..]. cbn [bind]. rewrite IH. reflexivity.
Qed.
Lemma valid_key_op vs o : valid_sop vs o -> valid_op vs (key_op o).
Proof.
  destruct o as [t w|t]; cbn [key_op valid_op]; rewrite app_length; cbn [length].
  - intros (Ht & H & Hw). split; [apply string_of_ok, Ht|]. split; [clear -H; lia|exact Hw].
  - intros (Ht & H). split; [apply string_of_ok, Ht|clear -H; lia].
Qed.
Lemma updated_key_op ops : updated (map key_op ops) = supdated ops.
Proof.
  unfold supdated. induction ops as [|[t w|t] ops IH]; [reflexivity| |exact IH].
  cbn [map key_op plain_op]. unfold updated in *. cbn [flat_map app map]. f_equal. exact IH.
Qed.

(** The dictionary over keys with terminator is the dictionary over strings. *)
Definition term (s : list N) : list N := s ++ [0].
Global Instance term_inj : Inj (=) (=) term.
Proof. intros x y H. apply app_inv_tail in H. exact H. Qed.
Lemma kmap_size (d : dict) : size (kmap term d : dict) = size d.
Proof.
  induction d as [|k v d Hd IH] using map_ind; [rewrite kmap_empty; reflexivity|].
  rewrite kmap_insert by apply term_inj. rewrite !map_size_insert_None; [congruence|exact Hd|].
  rewrite lookup_kmap by apply term_inj. exact Hd.
Qed.
Lemma spec_kmap vs ops : forall d : dict,
  fst (spec_run vs (kmap term d) (map key_op ops)) = fst (spec_run vs d (map plain_op ops)).
Proof.
  induction ops as [|[t w|t] ops IH]; intros d; [reflexivity| |].
  - cbn [map key_op plain_op spec_run spec_step]. change (string_of t ++ [0]) with (term (string_of t)).
    rewrite (lookup_kmap (M2 := gmap (list N)) term d (string_of t)), <- (kmap_insert (M2 := gmap (list N)) term d).
    rewrite kmap_size. specialize (IH (<[string_of t := default (default (replicate vs 0) (d !! string_of t)) w]> d)).
    destruct (spec_run vs (kmap term _) _) as [xs e]. destruct (spec_run vs (<[_ := _]> d) _) as [ys e2]. cbn in *. congruence.
  - cbn [map key_op plain_op spec_run spec_step]. change (string_of t ++ [0]) with (term (string_of t)).
    rewrite (lookup_kmap (M2 := gmap (list N)) term d (string_of t)), kmap_size. specialize (IH d).
    destruct (spec_run vs (kmap term d) _) as [xs e]. destruct (spec_run vs d _) as [ys e2]. cbn in *. congruence.
Qed.

Lemma i_text_run_ok dbg vs i cb e ops : valid_inst i -> i_supported vs i cb e (supdated ops) ->
  Forall (valid_sop vs) ops -> (i_traps dbg i = true -> ~ In [] (updated (map plain_op ops))) ->
  exists m0, i_new dbg vs i cb (2 ^ e) = Ret m0 /\
    i_yields i cb e (supdated ops) (i_text_run dbg vs i m0 ops)
      (fun '(xs, _) => xs = fst (spec_run vs ∅ (map plain_op ops))).
Proof.
  intros Hvi Hsup Hv Hnt. rewrite <- updated_key_op in *.
  destruct (i_run_ok dbg vs i cb e (map key_op ops) Hvi Hsup) as (m0 & E & H).
  - apply Forall_map. eapply Forall_impl; [exact Hv|]. intros o. apply valid_key_op.
  - intros Ht Hin. apply (Hnt Ht). rewrite updated_key_op in Hin. unfold supdated in Hin.
    apply in_map_iff in Hin as (s & Es & Hs). change [0] with (term []) in Es. apply term_inj in Es. subst. exact Hs.
  - exists m0. split; [exact E|]. rewrite text_run by exact Hv.
    pose proof (spec_kmap vs ops ∅) as Hk. rewrite kmap_empty in Hk. rewrite Hk in H. exact H.
Qed.
