(** C56: programs that use several maps, move, swap, assign and destroy them: every map shows the dictionary of the
    contents it holds, pointers follow the contents, and nothing is lost or released twice. *)
From Verif.Model Require Export Program.
From Verif.Proofs Require Import InstP ReachP ProgP FastP.
Local Open Scope N_scope.

(** The bytes that the objects own together. *)
Definition owned_bytes (dbg : bool) (vs : nat) (i : inst) (objs : gmap nat (obj dbg vs i)) : N :=
  map_fold (fun _ o total => hp_total (n_heap (i_nlm vs i) (m_nlm _ _ (fst o))) + total) 0 objs.

(** From no variables at all: whatever the specification says the program shows, it shows; at every point the bytes
    allocated are those that the objects own, each once, and the objects are the variables. *)
Theorem C56_program : forall dbg vs i prog seen P, valid_inst i -> does_all dbg vs i ∅ prog seen P ->
  exists M, p_run dbg vs i (mkMem dbg vs i ∅ 0) prog = Ret (seen, M) /\
    pm_alloc dbg vs i M = owned_bytes dbg vs i (pm_objs dbg vs i M) /\
    forall x, pm_objs dbg vs i M !! x = None <-> P !! x = None.
Proof.
  intros dbg vs i prog seen P Hvi Hd.
  destruct (does_all_ok dbg vs i Hvi prog ∅ (mkMem dbg vs i ∅ 0) seen P) as (M & E & Hl & Hg); [|exact Hd|].
  { split; [reflexivity|]. intros x. cbn [pm_objs]. rewrite !lookup_empty. exact I. }
  exists M. split; [exact E|]. split; [rewrite Hl; apply N.add_0_r|]. intros x. specialize (Hg x).
  destruct (P !! x) as [[c|]|], (pm_objs dbg vs i M !! x) as [[m ps]|]; cbn in Hg; split; intros H; try discriminate H; try contradiction Hg; reflexivity.
Qed.
(** When the last variable is gone, so is every block. *)
Corollary C56_all_released : forall dbg vs i prog seen, valid_inst i -> does_all dbg vs i ∅ prog seen ∅ ->
  p_run dbg vs i (mkMem dbg vs i ∅ 0) prog = Ret (seen, mkMem dbg vs i ∅ 0).
Proof.
  intros dbg vs i prog seen Hvi Hd. destruct (C56_program dbg vs i prog seen ∅ Hvi Hd) as ([objs l] & E & Hl & Hn).
  cbn [pm_alloc pm_objs] in *. assert (Eo : objs = ∅) by (apply map_eq; intros x; rewrite lookup_empty; apply Hn, lookup_empty).
  subst objs. rewrite E, Hl. reflexivity.
Qed.
(** The specification leaves no choice: a program shows one thing only. *)
Theorem C56_determined : forall dbg vs i prog P seen P1 seen' P2,
  does_all dbg vs i P prog seen P1 -> does_all dbg vs i P prog seen' P2 -> seen = seen' /\ P1 = P2.
Proof.
  intros dbg vs i prog. induction prog as [|s prog IH]; intros P seen P1 seen' P2 H H'.
  - inversion H; inversion H'; subst. auto.
  - inversion H as [|Pa sa za Qa pra za' Ra Da Aa]; inversion H' as [|Pb sb zb Qb prb zb' Rb Db Ab]; subst.
    assert (E : za = zb /\ Qa = Qb).
    { clear -Da Db. destruct Da; inversion Db; subst; split; try congruence; try (f_equal; congruence). }
    destruct E as [-> ->]. destruct (IH _ _ _ _ _ Aa Ab) as [-> ->]. auto.
Qed.

(** Why the specification excludes other uses of a map moved from (C16 for every instantiation): after any history
    with an update, the map moved from still reports the size, and find and update run into the emptied storage. *)
Theorem C16_moved_from : forall dbg vs i cb e ops m k, valid_inst i -> i_supported vs i cb e (updated ops) ->
  Forall (valid_op vs) ops -> i_no_trap dbg i (updated ops) -> i_reaches dbg vs i cb e ops m -> updated ops <> [] -> valid_key k ->
  let from := i_moved_from dbg vs i m in
  (i_find dbg vs i from k = UB \/ i_find dbg vs i from k = AssertFail) /\
  (i_update dbg vs i from k = UB \/ i_update dbg vs i from k = AssertFail) /\
  i_size dbg vs i from = i_size dbg vs i m /\ 0 < i_size dbg vs i from.
Proof.
  intros dbg vs i cb e ops m k Hvi Hsup Hv Hnt Hr Hne Hk from.
  destruct (i_bounds dbg vs i cb e ops m Hvi Hsup Hv Hnt Hr) as (Hs & [Hn _] & _).
  destruct (i_reach_inv dbg vs i cb e ops m Hvi Hsup Hv Hnt Hr) as (K & S & D & b & loc & Hi & _).
  pose proof (ip_ok _ _ _ _ _ _ K) as PK. destruct (minv_capa _ _ _ _ e _ _ _ _ _ PK m _ _ _ _ _ Hi) as (Hrd & _).
  assert (Hpos : 0 < i_size dbg vs i m).
  { rewrite Hs. destruct (updated ops) as [|k0 ks] eqn:E; [congruence|].
    assert (Hin : k0 ∈ dom (final vs ops)) by (rewrite dom_final, E; set_solver).
    destruct (decide (size (final vs ops) = 0%nat)) as [Hz|Hz]; [|lia].
    apply map_size_empty_inv in Hz. rewrite Hz in Hin. set_solver. }
  assert (Hz : t_size _ (m_trie _ _ m) <> 0) by (unfold i_nodes in Hn; lia).
  destruct (moved_broken dbg vs i m k Hrd Hz (proj1 (valid_okey k Hk))) as [H1 H2].
  split; [exact H1|]. split; [exact H2|]. split; [reflexivity|exact Hpos].
Qed.

(** ** The hypotheses are met *)
Definition pi : inst := inst_of plain_bonsai_map.
Definition ka : list N := [97; 98; 0].
Definition kb : list N := [97; 99; 0].
Definition pdemo : list stmt :=
  [Construct 0 0%N 1%N; Call 0 (HUpdate ka); Call 0 (HWrite 0 [7%N]); ConstructDefault 1; Call 1 (HFind ka); Call 1 (HUpdate kb);
   MoveTo 2 0; Call 2 (HRead 0); Swap 1 2; Swap 1 1; Call 1 (HRead 0); Call 1 (HFind kb); AskSize 1; Call 2 (HUpdate ka); AskSize 2;
   MoveTo 0 2; Call 0 (HRead 2); MoveTo 0 0; Construct 1 20%N 0%N; AskSize 1; Drop 2; Drop 0; Drop 1]%nat.
Definition pseen : list pobs :=
  [Answer (Ptr true); Answer Written; Answer (Ptr false); Answer (Ptr true); Answer (Read [7]); Answer (Read [7]);
   Answer (Ptr false); SizeIs 1; Answer (Ptr true); SizeIs 2; Answer (Read [0]); SizeIs 0].
Ltac room_tac := split; [split; [lia|]; split; [vm_compute; discriminate|]; split; [vm_compute; reflexivity|];
    apply Nat.leb_le; vm_compute; reflexivity|]; split; [intros H; discriminate H|intros H; exact H].
Ltac key_tac := lazymatch goal with
  | |- valid_key ka => exists [97; 98] | |- valid_key kb => exists [97; 99] end; split; [reflexivity|repeat constructor].
Ltac at_tac := repeat first [rewrite lookup_insert|rewrite lookup_insert_ne by lia|rewrite lookup_delete_ne by lia]; reflexivity.
Ltac do_tac := lazymatch goal with
  | |- does _ _ _ _ (Construct _ _ _) _ _ => apply does_construct; room_tac
  | |- does _ _ _ _ (ConstructDefault _) _ _ => apply does_default; [lia|room_tac]
  | |- does _ _ _ _ (MoveTo _ _) _ _ => eapply does_move; at_tac
  | |- does _ _ _ _ (Swap _ _) _ _ => eapply does_swap; [at_tac|at_tac]
  | |- does _ _ _ _ (Drop _) _ _ => eapply does_drop; at_tac
  | |- does _ _ _ _ (AskSize _) _ _ => eapply does_size; at_tac
  | |- does _ _ _ _ (Call _ _) _ _ => eapply does_call; [at_tac|first [exact I|split; [key_tac|reflexivity]]|room_tac|reflexivity]
  end.
Example pdemo_does : exists seen P, does_all true 1 pi ∅ pdemo seen P /\ seen = pseen /\ P = ∅.
Proof.
  eexists _, _. split; [|split].
  - unfold pdemo. do 23 (eapply does_cons; [do_tac|]). apply does_nil.
  - reflexivity.
  - apply map_eq. intros x. vm_compute. reflexivity.
Qed.
(** So the run of the model is this one. *)
Example pdemo_runs : p_run true 1 pi (mkMem true 1 pi ∅ 0) pdemo = Ret (pseen, mkMem true 1 pi ∅ 0).
Proof.
  destruct pdemo_does as (seen & P & H & -> & ->). apply C56_all_released; [|exact H].
  split; [cbn; lia|split; [cbn; lia|exact I]].
Qed.
(** In between there are blocks: the labels "ab\0", "ac\0" and, after the branch, "\0", with a value of one byte each; the
    move of map 0 to itself releases two of them. *)
Example pdemo_alloc :
  (let* r := p_run true 1 pi (mkMem true 1 pi ∅ 0) (firstn 14 pdemo) in Ret (pm_alloc _ _ _ (snd r))) = Ret 10 /\
  (let* r := p_run true 1 pi (mkMem true 1 pi ∅ 0) (firstn 18 pdemo) in Ret (pm_alloc _ _ _ (snd r))) = Ret 4.
Proof. split; run. Qed.
(** A program that uses a map moved from has no meaning in the specification, and none in the model. *)
Example bad_program :
  let prog := [Construct 0 0 1; Call 0 (HUpdate ka); MoveTo 1 0; Call 0 (HFind ka)] in
  p_run true 1 pi (mkMem true 1 pi ∅ 0) prog = AssertFail /\ ~ exists seen P, does_all true 1 pi ∅ prog seen P.
Proof.
  split; [run|]. intros (seen & P & H).
  repeat match goal with H : does_all _ _ _ _ (_ :: _) _ _ |- _ => inversion H; subst; clear H end.
  repeat match goal with H : does _ _ _ _ (MoveTo _ _) _ _ |- _ => inversion H; subst; clear H end.
  match goal with H : does _ _ _ _ (Call _ (HFind _)) _ _ |- _ => inversion H; subst; clear H end.
  match goal with H : <[_ := None]> _ !! _ = _ |- _ => rewrite lookup_insert in H; discriminate H end.
Qed.

Definition prog_props := (@C56_program, @C56_all_released, @C56_determined, @C16_moved_from).
Print Assumptions prog_props.
