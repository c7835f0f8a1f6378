(** Ownership of the blocks of a label store: kept by every operation that returns, whatever the arguments. *)
From Verif.Model Require Export Destroy Oom.
From Verif.Proofs Require Export EntriesP OomP.
Local Open Scope N_scope.

(** ** Owners and blocks *)
Record owned {I} (look : I -> option N) (h : heap) : Prop := {
  od_inj : forall i j id, look i = Some id -> look j = Some id -> i = j;
  od_iff : forall id, is_Some (hp_find h id) <-> exists i, look i = Some id;
  od_ok : hp_ok h }.
Lemma owned_reindex {I J} (look : I -> option N) (look' : J -> option N) h : owned look h ->
  (forall id, (exists i, look i = Some id) <-> exists j, look' j = Some id) ->
  (forall i j id, look' i = Some id -> look' j = Some id -> i = j) -> owned look' h.
Proof. intros [H1 H2 H3] He Hi. split; [exact Hi| |exact H3]. intros id. rewrite H2. apply He. Qed.
Lemma owned_ext {I} (look look' : I -> option N) h : owned look h -> (forall i, look' i = look i) -> owned look' h.
Proof.
  intros H E. apply (owned_reindex look); [exact H| |].
  - intros id. split; intros [i Hi]; exists i; [rewrite E|rewrite <- E]; exact Hi.
  - intros i j id. rewrite !E. apply (od_inj _ _ H).
Qed.
Lemma owned_none {I} (look : I -> option N) : (forall i, look i = None) -> owned look hp_empty.
Proof.
  intros H. split.
  - intros i j id E. rewrite H in E. discriminate.
  - intros id. rewrite hp_find_empty. split; [intros []; discriminate|]. intros [i E]. rewrite H in E. discriminate.
  - apply hp_ok_empty.
Qed.
Lemma owned_live {I} (look : I -> option N) h i : owned look h -> forall id, look i = Some id -> is_Some (hp_find h id).
Proof. intros H id E. apply (od_iff _ _ H). eauto. Qed.
Lemma owned_lt {I} (look : I -> option N) h i id : owned look h -> look i = Some id -> id < h_next h.
Proof. intros H E. destruct (owned_live look h i H id E) as [b Hb]. apply (od_ok _ _ H _ _ Hb). Qed.

Section steps.
  Context {I : Type} `{EqDecision I}.
  Implicit Types look : I -> option N.
  Lemma owned_free look look' h i : owned look h -> (forall j, j <> i -> look' j = look j) -> look' i = None ->
    owned look' (hp_free_opt h (look i)).
  Proof.
    intros H Ho Hi. destruct (look i) as [id|] eqn:E; cbn [hp_free_opt].
    - split.
      + intros j k x Hj Hk. assert (j <> i) by congruence. assert (k <> i) by congruence.
        rewrite Ho in Hj, Hk by assumption. apply (od_inj _ _ H j k x Hj Hk).
      + intros x. rewrite hp_find_free. destruct (N.eqb_spec x id) as [->|Hne].
        * split; [intros []; discriminate|]. intros [j Hj]. assert (j <> i) by congruence.
          rewrite Ho in Hj by assumption. destruct H0. apply (od_inj _ _ H j i id Hj E).
        * rewrite (od_iff _ _ H). split; intros [j Hj]; exists j.
          { rewrite Ho; [exact Hj|]. congruence. }
          { rewrite <- Ho; [exact Hj|]. congruence. }
      + apply hp_ok_free, (od_ok _ _ H).
    - apply (owned_ext look); [exact H|]. intros j. destruct (decide (j = i)) as [->|]; [congruence|apply Ho; assumption].
  Qed.
  Lemma owned_push look look' h i blk : owned look h -> look i = None ->
    (forall j, j <> i -> look' j = look j) -> look' i = Some (h_next h) -> owned look' (hp_push h blk).
  Proof.
    intros H E Ho Hi. split.
    - intros j k x Hj Hk. destruct (decide (j = i)) as [->|Nj], (decide (k = i)) as [->|Nk]; try reflexivity.
      + rewrite Ho in Hk by assumption. pose proof (owned_lt _ _ _ _ H Hk). rewrite Hi in Hj. injection Hj as <-. lia.
      + rewrite Ho in Hj by assumption. pose proof (owned_lt _ _ _ _ H Hj). rewrite Hi in Hk. injection Hk as <-. lia.
      + rewrite Ho in Hj, Hk by assumption. apply (od_inj _ _ H j k x Hj Hk).
    - intros x. rewrite find_push. destruct (N.eqb_spec x (h_next h)) as [->|Hne].
      + split; intros _; eauto.
      + rewrite (od_iff _ _ H). split; intros [j Hj]; exists j.
        * rewrite Ho; [exact Hj|]. congruence.
        * destruct (decide (j = i)) as [->|]; [congruence|]. rewrite <- Ho; assumption.
    - apply hp_ok_push, (od_ok _ _ H).
  Qed.
  (** Allocate for cell [i], then release what it held. *)
  Lemma owned_replace look look' h i blk : owned look h ->
    (forall j, j <> i -> look' j = look j) -> look' i = Some (h_next h) ->
    owned look' (hp_free_opt (hp_push h blk) (look i)).
  Proof.
    intros H Ho Hi.
    (* allocate for a cell of its own, release [i], rename *)
    set (l1 := fun x : option I => match x with Some j => look j | None => None end).
    set (l2 := fun x : option I => match x with Some j => look j | None => Some (h_next h) end).
    set (l3 := fun x : option I => match x with Some j => if decide (j = i) then None else look j | None => Some (h_next h) end).
    assert (H1 : owned l1 h).
    { apply (owned_reindex look); [exact H| |].
      - intros id. split; [intros [j Hj]; exists (Some j); exact Hj|]. intros [[j|] Hj]; [exists j; exact Hj|discriminate].
      - intros [j|] [k|] id Hj Hk; try discriminate. f_equal. apply (od_inj _ _ H j k id Hj Hk). }
    assert (H2 : owned l2 (hp_push h blk)).
    { split.
      - intros [j|] [k|] id Hj Hk; cbn [l2] in *; try reflexivity.
        + f_equal. apply (od_inj _ _ H j k id Hj Hk).
        + injection Hk as <-. pose proof (owned_lt _ _ _ _ H Hj). lia.
        + injection Hj as <-. pose proof (owned_lt _ _ _ _ H Hk). lia.
      - intros x. rewrite find_push. destruct (N.eqb_spec x (h_next h)) as [->|Hne].
        + split; intros _; [exists None; reflexivity|eauto].
        + rewrite (od_iff _ _ H). split; [intros [j Hj]; exists (Some j); exact Hj|].
          intros [[j|] Hj]; [exists j; exact Hj|]. cbn [l2] in Hj. congruence.
      - apply hp_ok_push, (od_ok _ _ H). }
    assert (H3 : owned l3 (hp_free_opt (hp_push h blk) (look i))).
    { destruct (look i) as [id|] eqn:E; cbn [hp_free_opt].
      - split.
        + intros a b x Ha Hb. apply (od_inj _ _ H2 a b x).
          * destruct a as [j|]; [|exact Ha]. cbn [l3] in Ha. destruct (decide (j = i)); [discriminate|exact Ha].
          * destruct b as [j|]; [|exact Hb]. cbn [l3] in Hb. destruct (decide (j = i)); [discriminate|exact Hb].
        + intros x. rewrite hp_find_free. destruct (N.eqb_spec x id) as [->|Hne].
          * split; [intros []; discriminate|]. intros [[j|] Hj]; cbn [l3] in Hj.
            { destruct (decide (j = i)) as [|Nj]; [discriminate|]. destruct Nj. apply (od_inj _ _ H j i id Hj E). }
            { injection Hj as <-. pose proof (owned_lt _ _ _ _ H E). lia. }
          * rewrite (od_iff _ _ H2). split; intros [[j|] Hj].
            { exists (Some j). cbn [l2 l3] in *. destruct (decide (j = i)); [congruence|exact Hj]. }
            { exists None. exact Hj. }
            { exists (Some j). cbn [l2 l3] in *. destruct (decide (j = i)); [discriminate|exact Hj]. }
            { exists None. exact Hj. }
        + apply hp_ok_free, (od_ok _ _ H2).
      - apply (owned_ext l2); [exact H2|]. intros [j|]; [|reflexivity]. cbn [l2 l3]. destruct (decide (j = i)) as [->|]; congruence. }
    apply (owned_reindex l3); [exact H3| |].
    - intros id. split.
      + intros [[j|] Hj]; cbn [l3] in Hj.
        * exists j. destruct (decide (j = i)) as [|Nj]; [discriminate|]. rewrite Ho by exact Nj. exact Hj.
        * exists i. congruence.
      + intros [j Hj]. destruct (decide (j = i)) as [->|Nj].
        * exists None. cbn [l3]. congruence.
        * exists (Some j). cbn [l3]. destruct (decide (j = i)); [contradiction|]. rewrite <- Ho; assumption.
    - intros j k x Hj Hk.
      assert (Hlk : forall a, look' a = Some x -> a = i /\ x = h_next h \/ a <> i /\ look a = Some x).
      { intros a Ha. destruct (decide (a = i)) as [->|Na]; [left; split; [reflexivity|congruence]|right].
        split; [exact Na|]. rewrite <- Ho; assumption. }
      destruct (Hlk j Hj) as [[-> Ej]|[Nj Ej]], (Hlk k Hk) as [[-> Ek]|[Nk Ek]]; try reflexivity.
      + subst x. pose proof (owned_lt _ _ _ _ H Ek). lia.
      + subst x. pose proof (owned_lt _ _ _ _ H Ej). lia.
      + apply (od_inj _ _ H j k x Ej Ek).
  Qed.
  (** A cell takes over the block of another one. *)
  Lemma owned_move look look' h i j : owned look h -> look j = None -> i <> j ->
    look' i = None -> look' j = look i -> (forall k, k <> i -> k <> j -> look' k = look k) -> owned look' h.
  Proof.
    intros H Ej Hne Hi Hj Ho.
    assert (Hlk : forall a x, look' a = Some x -> a = j /\ look i = Some x \/ a <> i /\ a <> j /\ look a = Some x).
    { intros a x Ha. destruct (decide (a = j)) as [->|Na]; [left; split; [reflexivity|congruence]|right].
      assert (a <> i) by congruence. split; [assumption|]. split; [assumption|]. rewrite <- Ho; assumption. }
    apply (owned_reindex look); [exact H| |].
    - intros id. split; intros [a Ha].
      + destruct (decide (a = i)) as [->|]; [exists j; congruence|]. exists a. rewrite Ho; [exact Ha|assumption|congruence].
      + destruct (Hlk a id Ha) as [[_ E]|(_ & _ & E)]; eauto.
    - intros a b x Ha Hb. destruct (Hlk a x Ha) as [[-> Ea]|(Na & Na' & Ea)], (Hlk b x Hb) as [[-> Eb]|(Nb & Nb' & Eb)]; try reflexivity.
      + destruct Nb. apply (od_inj _ _ H b i x Eb Ea).
      + destruct Na. apply (od_inj _ _ H a i x Ea Eb).
      + apply (od_inj _ _ H a b x Ea Eb).
  Qed.
End steps.
Lemma owned_write {I} (look : I -> option N) h p w h' : owned look h -> hp_write h p w = Ret h' -> owned look h'.
Proof.
  intros H E. unfold hp_write in E. apply bind_inv in E as (blk & Eb & E). unfold hp_block in Eb.
  destruct (hp_find h (fst p)) as [b|] eqn:Ef; [|discriminate]. destruct (_ <=? _); [|discriminate]. injection E as <-.
  split.
  - apply (od_inj _ _ H).
  - intros id. rewrite <- (od_iff _ _ H id). fold (hp_add h (fst p) (firstn (N.to_nat (snd p)) blk ++ w ++ skipn (N.to_nat (snd p) + length w) blk)).
    rewrite find_add. destruct (N.eqb_spec id (fst p)) as [->|]; [|reflexivity]. rewrite Ef. split; eauto.
  - intros id b' Hf. cbn [h_next].
    fold (hp_add h (fst p) (firstn (N.to_nat (snd p)) blk ++ w ++ skipn (N.to_nat (snd p) + length w) blk)) in Hf.
    rewrite find_add in Hf. destruct (N.eqb_spec id (fst p)) as [->|]; [apply (od_ok _ _ H _ _ Ef)|apply (od_ok _ _ H _ _ Hf)].
Qed.
Lemma owned_nothing {I} (look : I -> option N) h : owned look h -> (forall i, look i = None) -> forall id, hp_find h id = None.
Proof.
  intros H E id. destruct (hp_find h id) as [b|] eqn:Eb; [|reflexivity].
  destruct (proj1 (od_iff _ _ H id)) as [i Hi]; [rewrite Eb; eauto|]. rewrite E in Hi. discriminate.
Qed.

(** ** Vectors of owners *)
Definition cell (v : vec (option N)) (i : N) : option N := if i <? vlen v then vnth v i else None.
Definition two {J} (v : vec (option N)) (other : J -> option N) (x : N + J) : option N :=
  match x with inl i => cell v i | inr j => other j end.
Lemma cell_new n i : cell (vnew n None) i = None.
Proof. unfold cell. rewrite vnth_new. destruct (_ <? _); reflexivity. Qed.
Lemma vget_cell v i p : vget v i = Ret p -> cell v i = p /\ i < vlen v.
Proof. unfold vget, cell. destruct (N.ltb_spec i (vlen v)); [|discriminate]. intros E. injection E as <-. auto. Qed.
Lemma vset_cell v i p v' : vset v i p = Ret v' -> cell v' i = p /\ (forall j, j <> i -> cell v' j = cell v j).
Proof.
  unfold vset, cell. destruct (N.ltb_spec i (vlen v)) as [Hi|]; [|discriminate]. intros E. injection E as <-. rewrite vlen_upd.
  split.
  - rewrite (proj2 (N.ltb_lt _ _) Hi), vnth_upd, N.eqb_refl. reflexivity.
  - intros j Hj. rewrite vnth_upd, (proj2 (N.eqb_neq _ _) Hj). reflexivity.
Qed.
Lemma cell_push v x i : cell (vpush v x) i = if i =? vlen v then x else cell v i.
Proof.
  unfold cell. rewrite vlen_push, vnth_push. destruct (N.eqb_spec i (vlen v)) as [->|].
  - destruct (N.ltb_spec (vlen v) (vlen v + 1)); [reflexivity|lia].
  - destruct (N.ltb_spec i (vlen v + 1)), (N.ltb_spec i (vlen v)); try lia; reflexivity.
Qed.
Lemma cell_end v : cell v (vlen v) = None.
Proof. unfold cell. rewrite N.ltb_irrefl. reflexivity. Qed.

Lemma delete_inv h o h' : hp_delete h o = Ret h' -> h' = hp_free_opt h o.
Proof.
  destruct o as [id|]; cbn [hp_delete hp_free_opt]; [|intros [= <-]; reflexivity].
  intros E. apply bind_inv in E as (b & _ & E). injection E as <-. reflexivity.
Qed.

(** The destructor of a vector of owners. *)
Lemma free_all_ok {J} `{EqDecision J} (v : vec (option N)) (other : J -> option N) h : owned (two v other) h ->
  exists h', free_all v h = Ret h' /\ owned other h'.
Proof.
  intros H. unfold free_all. set (g := fun o : outcome (N * heap) => _).
  set (lk := fun k (x : N + J) => match x with inl i => if i <? k then None else cell v i | inr j => other j end).
  assert (E : forall k, k <= vlen v -> exists h', N.iter k g (Ret (0, h)) = Ret (k, h') /\ owned (lk k) h').
  { induction k as [|k IH] using N.peano_ind; intros Hk.
    - exists h. split; [reflexivity|]. apply (owned_ext (two v other)); [exact H|]. intros [i|j]; [|reflexivity].
      cbn [lk two]. destruct (N.ltb_spec i 0); [lia|reflexivity].
    - destruct IH as (h1 & E1 & H1); [lia|]. rewrite N.iter_succ, E1. unfold g at 1. rewrite bind_ret, vget_ok by lia.
      rewrite bind_ret.
      assert (Ek : lk k (inl k) = vnth v k).
      { cbn [lk]. rewrite N.ltb_irrefl. unfold cell. destruct (N.ltb_spec k (vlen v)); [reflexivity|lia]. }
      rewrite hp_delete_ok by (rewrite <- Ek; apply (owned_live _ _ _ H1)). rewrite bind_ret.
      eexists. split; [f_equal; f_equal; lia|]. rewrite <- Ek.
      apply (owned_free (lk k) _ h1 (inl k) H1).
      + intros [i|j] Hj; [|reflexivity]. cbn [lk].
        destruct (N.ltb_spec i (N.succ k)), (N.ltb_spec i k); try lia; try reflexivity. destruct Hj. f_equal. lia.
      + cbn [lk]. destruct (N.ltb_spec k (N.succ k)); [reflexivity|lia]. }
  destruct (E (vlen v) ltac:(lia)) as (h' & -> & H'). rewrite bind_ret. exists h'. split; [reflexivity|].
  apply (owned_reindex (lk (vlen v))); [exact H'| |].
  - assert (Hl : forall i, lk (vlen v) (inl i) = None).
    { intros i. cbn [lk]. destruct (N.ltb_spec i (vlen v)); [reflexivity|]. unfold cell.
      destruct (N.ltb_spec i (vlen v)); [lia|reflexivity]. }
    intros id. split.
    + intros [[i|j] Hj]; [rewrite Hl in Hj; discriminate|]. exists j. exact Hj.
    + intros [j Hj]. exists (inr j). exact Hj.
  - intros i j id Hi Hj. assert (Ei : inr i = inr j :> N + J) by (apply (od_inj _ _ H' (inr i) (inr j) id Hi Hj)). congruence.
Qed.
Lemma free_all_only v h : owned (cell v) h -> exists h', free_all v h = Ret h' /\ forall id, hp_find h' id = None.
Proof.
  intros H. destruct (free_all_ok v (fun x : Empty_set => None) h) as (h' & E & H').
  - apply (owned_reindex (cell v)); [exact H| |].
    + intros id. split; [intros [i Hi]; exists (inl i); exact Hi|]. intros [[i|[]] Hi]. exists i. exact Hi.
    + intros [i|[]] [j|[]] id Hi Hj. f_equal. apply (od_inj _ _ H i j id Hi Hj).
  - exists h'. split; [exact E|]. apply (owned_nothing _ _ H'). reflexivity.
Qed.

(** [for_range]: an invariant of the runs that return. *)
#[local] Transparent for_range.
Lemma for_range_unfold {S} a b (body : N -> S -> outcome S) s : for_range a b body s =
  loop (fun st : N * S =>
          let '(i, s) := st in
          if i <? b then let* s' := body i s in Ret (inl (i + 1, s'))
          else Ret (inr s)) (a, s).
Proof. unfold for_range. reflexivity. Qed.
#[local] Opaque for_range.
Lemma for_range_ret {S} a b (body : N -> S -> outcome S) s r (I : S -> Prop) : I s ->
  (forall i s s', I s -> body i s = Ret s' -> I s') -> for_range a b body s = Ret r -> I r.
Proof.
  intros Hs Hb E. rewrite for_range_unfold in E.
  apply (loop_ret _ (fun st => I (snd st)) I) in E; [exact E|exact Hs|].
  intros [i s1] H1. destruct (i <? b); [|exact H1].
  destruct (body i s1) as [s2| | | |] eqn:Eb; cbn [bind]; try exact Logic.I. apply (Hb i s1 s2 H1 Eb).
Qed.

(** ** Label stores *)
(** [own n]: the owners of the store hold exactly the blocks of its heap. *)
Record nlm_own (NO : nlm_ops) (own : nT NO -> Prop) (destroy : nT NO -> outcome heap) : Prop := {
  no_default : own (n_default NO) /\ forall id, hp_find (n_heap NO (n_default NO)) id = None;
  no_new : forall b n, n_new NO b = Ret n -> own n;
  no_insert : forall n x k p n', own n -> n_insert NO n x k = Ret (p, n') -> own n';
  no_expand : forall n nm n', own n -> n_expand NO n nm = Ret n' -> own n';
  no_append : forall n k p n', own n -> n_append NO n k = Ret (p, n') -> own n';
  no_dummy : forall n n', own n -> n_append_dummy NO n = Ret n' -> own n';
  no_write : forall n p w h, own n -> hp_write (n_heap NO n) p w = Ret h -> own (n_set_heap NO n h);
  no_destroy : forall n, own n -> exists h, destroy n = Ret h /\ forall id, hp_find h id = None }.
Definition fail_own {NO : nlm_ops} (own : nT NO -> Prop) (label_fail : nT NO -> N -> list N -> outcome (nT NO)) : Prop :=
  forall n x k n', own n -> label_fail n x k = Ret n' -> own n'.

Definition pbn_own (n : pbn) : Prop := owned (cell (pbn_ptrs n)) (pbn_heap n).
Lemma pbn_own_insert vs n x k p n' : pbn_own n -> pbn_insert vs n x k = Ret (p, n') -> pbn_own n'.
Proof.
  intros H E. unfold pbn_insert in E. apply bind_inv in E as (q & Eq & E). apply bind_inv in E as ([] & Ea & E).
  apply bind_inv in E as (blk & _ & E). rewrite hp_alloc_eq in E. apply bind_inv in E as (ptrs & Es & E). injection E as _ <-.
  destruct q; [discriminate|]. apply vget_cell in Eq as [Eq _]. apply vset_cell in Es as [E1 E2].
  unfold pbn_own. cbn [pbn_ptrs pbn_heap]. apply (owned_push (cell (pbn_ptrs n)) _ _ x blk H Eq E2 E1).
Qed.
Lemma pbn_own_expand n nm n' : pbn_own n -> pbn_expand n nm = Ret n' -> pbn_own n'.
Proof.
  intros H E. unfold pbn_expand in E. apply bind_inv in E as ([[ptrs np] h] & El & E).
  apply (for_range_ret _ _ _ _ _ (fun '(ptrs, np, h) => owned (two ptrs (cell np)) h)) in El.
  - destruct (free_all_ok ptrs (cell np) h El) as (h' & E1 & H'). rewrite E1, bind_ret in E. injection E as <-. exact H'.
  - apply (owned_reindex (cell (pbn_ptrs n))); [exact H| |].
    + intros id. split; [intros [i Hi]; exists (inl i); exact Hi|]. intros [[i|i] Hi]; [exists i; exact Hi|].
      cbn [two] in Hi. rewrite cell_new in Hi. discriminate.
    + intros [i|i] [j|j] id Hi Hj; cbn [two] in *; rewrite ?cell_new in *; try discriminate. f_equal. apply (od_inj _ _ H i j id Hi Hj).
  - intros i [[p1 np1] h1] [[p2 np2] h2] H1 E1. apply bind_inv in E1 as (y & _ & E1). destruct (negb _).
    2:{ injection E1 as <- <- <-. exact H1. }
    apply bind_inv in E1 as (p & Ep & E1). apply bind_inv in E1 as (old & Eo & E1). apply bind_inv in E1 as (np' & En & E1).
    apply bind_inv in E1 as (p1' & Ep' & E1). apply bind_inv in E1 as (h' & Ed & E1). injection E1 as <- <- <-.
    apply vget_cell in Ep as [Ep _]. apply vget_cell in Eo as [Eo _]. apply vset_cell in En as [En1 En2]. apply vset_cell in Ep' as [Ep1 Ep2].
    apply delete_inv in Ed as ->.
    set (l1 := fun x : N + N => match x with inl j => cell p1 j | inr z => if decide (z = y) then None else cell np1 z end).
    assert (H2 : owned l1 (hp_free_opt h1 old)).
    { rewrite <- Eo. apply (owned_free (two p1 (cell np1)) l1 h1 (inr y) H1).
      - intros [j|z] Hj; cbn [two l1]; [reflexivity|]. destruct (decide (z = y)) as [->|]; [contradiction|reflexivity].
      - cbn [l1]. destruct (decide (y = y)); [reflexivity|contradiction]. }
    apply (owned_move l1 _ _ (inl i) (inr y) H2).
    + cbn [l1]. destruct (decide (y = y)); [reflexivity|contradiction].
    + discriminate.
    + exact Ep1.
    + cbn [two l1]. congruence.
    + intros [j|z] N1 N2; cbn [two l1].
      * apply Ep2. congruence.
      * destruct (decide (z = y)) as [->|Nz]; [contradiction|]. apply En2, Nz.
Qed.
Lemma pbn_nlm_own vs : nlm_own (pbn_ops vs) pbn_own pbn_destroy.
Proof.
  split; cbn [n_default n_new n_insert n_expand n_append n_append_dummy n_heap n_set_heap pbn_ops nT].
  - split; [apply owned_none; intros i; apply cell_new|]. intros id. apply hp_find_empty.
  - intros b n E. unfold pbn_new in E. destruct (b <? 64); [|discriminate]. injection E as <-.
    apply owned_none. intros i. apply cell_new.
  - apply pbn_own_insert.
  - apply pbn_own_expand.
  - discriminate.
  - discriminate.
  - intros n p w h H E. apply (owned_write _ _ _ _ _ H E).
  - intros n H. apply free_all_only, H.
Qed.

Definition pfn_own (n : pfn) : Prop := owned (cell (pfn_ptrs n)) (pfn_heap n).
Lemma pfn_nlm_own vs : nlm_own (pfn_ops vs) pfn_own pfn_destroy.
Proof.
  split; cbn [n_default n_new n_insert n_expand n_append n_append_dummy n_heap n_set_heap pfn_ops nT].
  - split; [apply owned_none; intros i; apply cell_new|]. intros id. apply hp_find_empty.
  - intros b n E. unfold pfn_new in E. destruct (b <? 64); [|discriminate]. injection E as <-.
    apply owned_none. intros i. apply cell_new.
  - discriminate.
  - discriminate.
  - intros n k p n' H E. unfold pfn_append in E. apply bind_inv in E as (blk & _ & E). rewrite hp_alloc_eq in E. injection E as _ <-.
    apply (owned_push (cell (pfn_ptrs n)) _ _ (vlen (pfn_ptrs n)) blk H (cell_end _)); cbn [pfn_ptrs].
    + intros j Hj. rewrite cell_push, (proj2 (N.eqb_neq _ _) Hj). reflexivity.
    + rewrite cell_push, N.eqb_refl. reflexivity.
  - intros n n' H E. injection E as <-. apply (owned_ext (cell (pfn_ptrs n))); [exact H|]. intros i. cbn [pfn_ptrs].
    rewrite cell_push. destruct (N.eqb_spec i (vlen (pfn_ptrs n))) as [->|]; [symmetry; apply cell_end|reflexivity].
  - intros n p w h H E. apply (owned_write _ _ _ _ _ H E).
  - intros n H. apply free_all_only, H.
Qed.

Definition cbn_own (n : cbn) : Prop := owned (cell (cbn_ptrs n)) (cbn_heap n).
Lemma splice_own {J} `{EqDecision J} (other : J -> option N) cs c ptrs h ci pos id alloc bytes nid front ptrs' h' :
  owned (two ptrs other) h -> cell ptrs ci = Some id ->
  splice cs c ptrs h ci pos id alloc bytes = Ret (nid, front, ptrs', h') -> owned (two ptrs' other) h'.
Proof.
  intros H Ec E. unfold splice in E. apply bind_inv in E as (blk & _ & E). apply bind_inv in E as ([fr bk] & _ & E).
  apply bind_inv in E as (a & _ & E). apply bind_inv in E as (b & _ & E). apply bind_inv in E as (new & _ & E).
  rewrite hp_alloc_eq in E. apply bind_inv in E as (p & Es & E). apply bind_inv in E as (h1 & Ed & E). injection E as _ _ <- <-.
  apply delete_inv in Ed as ->. apply vset_cell in Es as [E1 E2]. rewrite <- Ec.
  change (cell ptrs ci) with (two ptrs other (inl ci)). apply (owned_replace (two ptrs other) _ h (inl ci) new H).
  - intros [j|j] Hj; [|reflexivity]. apply E2. congruence.
  - exact E1.
Qed.
Lemma push_own {J} `{EqDecision J} (other : J -> option N) ptrs h ci blk ptrs' :
  owned (two ptrs other) h -> cell ptrs ci = None -> vset ptrs ci (Some (h_next h)) = Ret ptrs' ->
  owned (two ptrs' other) (hp_push h blk).
Proof.
  intros H Ec Es. apply vset_cell in Es as [E1 E2]. apply (owned_push (two ptrs other) _ h (inl ci) blk H Ec).
  - intros [j|j] Hj; [|reflexivity]. apply E2. congruence.
  - exact E1.
Qed.
Lemma set_slice_own {J} `{EqDecision J} (other : J -> option N) cs ptrs chunks h ci pos sl ptrs' chunks' h' :
  owned (two ptrs other) h -> set_slice cs ptrs chunks h ci pos sl = Ret (ptrs', chunks', h') -> owned (two ptrs' other) h'.
Proof.
  intros H E. unfold set_slice in E. apply bind_inv in E as (c & _ & E). apply bind_inv in E as (bit & _ & E).
  apply bind_inv in E as ([] & _ & E). apply bind_inv in E as (c' & _ & E). apply bind_inv in E as (ch & _ & E).
  apply bind_inv in E as (p & Ep & E). apply vget_cell in Ep as [Ep _]. destruct p as [id|].
  - apply bind_inv in E as ([[[nid fr] p'] h1] & Es & E). injection E as <- _ <-. eapply splice_own; eassumption.
  - apply bind_inv in E as (blk & _ & E). rewrite hp_alloc_eq in E. apply bind_inv in E as (p' & Es & E). injection E as <- _ <-.
    eapply push_own; eassumption.
Qed.
Definition none (x : Empty_set) : option N := None.
Lemma cell_two v h : owned (cell v) h <-> owned (two v none) h.
Proof.
  split; intros H.
  - apply (owned_reindex (cell v)); [exact H| |].
    + intros id. split; [intros [i Hi]; exists (inl i); exact Hi|]. intros [[i|[]] Hi]. exists i. exact Hi.
    + intros [i|[]] [j|[]] id Hi Hj. f_equal. apply (od_inj _ _ H i j id Hi Hj).
  - apply (owned_reindex (two v none)); [exact H| |].
    + intros id. split; [|intros [i Hi]; exists (inl i); exact Hi]. intros [[i|[]] Hi]. exists i. exact Hi.
    + intros i j id Hi Hj. assert (E : inl i = inl j :> N + Empty_set) by (apply (od_inj _ _ H (inl i) (inl j) id Hi Hj)). congruence.
Qed.
Lemma two_swap v w h : owned (two v (cell w)) h -> owned (two w (cell v)) h.
Proof.
  intros H. apply (owned_reindex (two v (cell w))); [exact H| |].
  - intros id. split; intros [[i|i] Hi]; first [exists (inl i); exact Hi|exists (inr i); exact Hi].
  - intros [i|i] [j|j] id Hi Hj; cbn [two] in *.
    + assert (E : inr i = inr j :> N + N) by (apply (od_inj _ _ H (inr i) (inr j) id Hi Hj)). congruence.
    + assert (E : inr i = inl j :> N + N) by (apply (od_inj _ _ H (inr i) (inl j) id Hi Hj)). congruence.
    + assert (E : inl i = inr j :> N + N) by (apply (od_inj _ _ H (inl i) (inr j) id Hi Hj)). congruence.
    + assert (E : inl i = inl j :> N + N) by (apply (od_inj _ _ H (inl i) (inl j) id Hi Hj)). congruence.
Qed.
Lemma cbn_own_insert cs vs n x k p n' : cbn_own n -> cbn_insert cs vs n x k = Ret (p, n') -> cbn_own n'.
Proof.
  intros H E. unfold cbn_insert, decompose_value in E. apply bind_inv in E as (c & _ & E). apply bind_inv in E as (bit & _ & E).
  apply bind_inv in E as ([] & _ & E). apply bind_inv in E as (c' & _ & E). apply bind_inv in E as (ch & _ & E).
  apply bind_inv in E as (vsz & _ & E). apply bind_inv in E as (code & _ & E).
  apply bind_inv in E as (q & Eq & E). apply vget_cell in Eq as [Eq _]. apply cell_two in H. destruct q as [id|].
  - apply bind_inv in E as ([[[nid fr] p'] h1] & Es & E). injection E as _ <-. apply cell_two. cbn [cbn_ptrs cbn_heap].
    eapply splice_own; eassumption.
  - apply bind_inv in E as (blk & _ & E). rewrite hp_alloc_eq in E. apply bind_inv in E as (p' & Es & E). injection E as _ <-.
    apply cell_two. cbn [cbn_ptrs cbn_heap]. eapply push_own; eassumption.
Qed.
Lemma cbn_own_expand cs n nm n' : cbn_own n -> cbn_expand cs n nm = Ret n' -> cbn_own n'.
Proof.
  intros H E. unfold cbn_expand in E. apply bind_inv in E as (bits & _ & E). apply bind_inv in E as (nls & En & E).
  assert (Hn : cbn_ptrs nls = vnew (shl 1 bits / cs) None).
  { unfold cbn_new in En. destruct (bits <? 64); [|discriminate]. injection En as <-. reflexivity. }
  apply bind_inv in E as ([[[ptrs np] nch] h] & El & E).
  apply (for_range_ret _ _ _ _ _ (fun '(ptrs, np, nch, h) => owned (two ptrs (cell np)) h)) in El.
  - destruct (free_all_ok ptrs (cell np) h El) as (h' & E1 & H'). rewrite E1, bind_ret in E. injection E as <-. exact H'.
  - rewrite Hn. apply (owned_reindex (cell (cbn_ptrs n))); [exact H| |].
    + intros id. split; [intros [i Hi]; exists (inl i); exact Hi|]. intros [[i|i] Hi]; [exists i; exact Hi|].
      cbn [two] in Hi. rewrite cell_new in Hi. discriminate.
    + intros [i|i] [j|j] id Hi Hj; cbn [two] in *; rewrite ?cell_new in *; try discriminate. f_equal. apply (od_inj _ _ H i j id Hi Hj).
  - intros pos [[[p1 np1] nch1] h1] [[[p2 np2] nch2] h2] H1 E1. unfold decompose_value in E1.
    apply bind_inv in E1 as (y & _ & E1). apply bind_inv in E1 as ([[np3 nch3] h3] & Em & E1).
    assert (H3 : owned (two p1 (cell np3)) h3).
    { destruct (negb _); [|injection Em as <- _ <-; exact H1].
      apply bind_inv in Em as (c & _ & Em). apply bind_inv in Em as (p & _ & Em). apply bind_inv in Em as (sl & _ & Em).
      destruct sl as [|s0 sl]; [injection Em as <- _ <-; exact H1|].
      apply two_swap. apply two_swap in H1. eapply set_slice_own; eassumption. }
    clear Em H1. destruct (_ =? _).
    2:{ injection E1 as <- <- _ <-. exact H3. }
    apply bind_inv in E1 as (p & Ep & E1). apply bind_inv in E1 as (p1' & Es & E1). apply bind_inv in E1 as (h' & Ed & E1).
    injection E1 as <- <- _ <-. apply vget_cell in Ep as [Ep _]. apply vset_cell in Es as [Es1 Es2]. apply delete_inv in Ed as ->.
    rewrite <- Ep. change (cell p1 (pos / cs)) with (two p1 (cell np3) (inl (pos / cs))).
    apply (owned_free (two p1 (cell np3)) _ h3 (inl (pos / cs)) H3).
    + intros [j|j] Hj; [|reflexivity]. apply Es2. congruence.
    + exact Es1.
Qed.
Lemma cbn_nlm_own cs vs : nlm_own (cbn_ops cs vs) cbn_own cbn_destroy.
Proof.
  split; cbn [n_default n_new n_insert n_expand n_append n_append_dummy n_heap n_set_heap cbn_ops nT].
  - split; [apply owned_none; intros i; apply cell_new|]. intros id. apply hp_find_empty.
  - intros b n E. unfold cbn_new in E. destruct (b <? 64); [|discriminate]. injection E as <-.
    apply owned_none. intros i. apply cell_new.
  - apply cbn_own_insert.
  - apply cbn_own_expand.
  - discriminate.
  - discriminate.
  - intros n p w h H E. apply (owned_write _ _ _ _ _ H E).
  - intros n H. apply free_all_only, H.
Qed.

Definition one (o : option N) (x : unit) : option N := o.
Definition cfn_own (n : cfn) : Prop := owned (two (cfn_ptrs n) (one (cfn_buf n))) (cfn_heap n).
Lemma release_own n n' : cfn_own n -> release_buf n = Ret n' -> cfn_own n'.
Proof.
  intros H E. unfold release_buf in E. apply bind_inv in E as (buf & _ & E). apply bind_inv in E as (blk & _ & E).
  rewrite hp_alloc_eq in E. apply bind_inv in E as (h & Ed & E). injection E as <-. apply delete_inv in Ed as ->.
  unfold cfn_own. cbn [cfn_ptrs cfn_buf cfn_heap]. set (v := cfn_ptrs n) in *. set (h := cfn_heap n) in *.
  assert (H1 : owned (two (vpush v (Some (h_next h))) (one (cfn_buf n))) (hp_push h blk)).
  { apply (owned_push (two v (one (cfn_buf n))) _ h (inl (vlen v)) blk H (cell_end v)); cbn [two].
    - intros [j|[]] Hj; [|reflexivity]. cbn [two]. rewrite cell_push. destruct (N.eqb_spec j (vlen v)) as [->|]; [contradiction|reflexivity].
    - rewrite cell_push, N.eqb_refl. reflexivity. }
  change (cfn_buf n) with (two (vpush v (Some (h_next h))) (one (cfn_buf n)) (inr tt)).
  apply (owned_free _ _ _ (inr tt) H1).
  - intros [j|[]] Hj; [reflexivity|contradiction].
  - reflexivity.
Qed.
Lemma next_slot_own cs n n' : cfn_own n -> next_slot cs n = Ret n' -> cfn_own n'.
Proof.
  intros H E. unfold next_slot, decompose_value in E. destruct (_ && _).
  - eapply release_own; [|exact E]. exact H.
  - injection E as <-. exact H.
Qed.
Lemma set_buf_own n bytes id n' : cfn_own n -> set_buf n bytes = Ret (id, n') -> cfn_own n'.
Proof.
  intros H E. unfold set_buf in E. rewrite hp_alloc_eq in E. apply bind_inv in E as (h & Ed & E). injection E as _ <-.
  apply delete_inv in Ed as ->. unfold cfn_own. cbn [cfn_ptrs cfn_buf cfn_heap].
  change (cfn_buf n) with (two (cfn_ptrs n) (one (cfn_buf n)) (inr tt)).
  apply (owned_replace _ _ _ (inr tt) bytes H).
  - intros [j|[]] Hj; [reflexivity|contradiction].
  - reflexivity.
Qed.
Lemma cfn_nlm_own cs vs : nlm_own (cfn_ops cs vs) cfn_own cfn_destroy.
Proof.
  assert (H0 : cfn_own cfn_default). { apply owned_none. intros [i|[]]; [apply cell_new|reflexivity]. }
  split; cbn [n_default n_new n_insert n_expand n_append n_append_dummy n_heap n_set_heap cfn_ops nT].
  - split; [exact H0|]. intros id. apply hp_find_empty.
  - intros b n E. unfold cfn_new in E. destruct (b <? 64); [|discriminate]. injection E as <-. exact H0.
  - discriminate.
  - discriminate.
  - intros n k p n' H E. unfold cfn_append in E. apply bind_inv in E as (n1 & E1 & E). apply bind_inv in E as (buf & _ & E).
    apply bind_inv in E as (r & _ & E). apply bind_inv in E as ([id n2] & E2 & E). injection E as _ <-.
    eapply set_buf_own; [|exact E2]. eapply next_slot_own; eassumption.
  - intros n n' H E. unfold cfn_append_dummy in E. apply bind_inv in E as (n1 & E1 & E). apply bind_inv in E as (buf & _ & E).
    apply bind_inv in E as (r & _ & E). apply bind_inv in E as ([id n2] & E2 & E). injection E as <-.
    eapply set_buf_own; [|exact E2]. eapply next_slot_own; eassumption.
  - intros n p w h H E. apply (owned_write _ _ _ _ _ H E).
  - intros n H. unfold cfn_destroy. rewrite hp_delete_ok by (apply (owned_live _ _ (inr tt) H)). rewrite bind_ret.
    apply free_all_only. apply cell_two.
    assert (H1 : owned (two (cfn_ptrs n) (one None)) (hp_free_opt (cfn_heap n) (cfn_buf n))).
    { change (cfn_buf n) with (two (cfn_ptrs n) (one (cfn_buf n)) (inr tt)). apply (owned_free _ _ _ (inr tt) H).
      - intros [j|[]] Hj; [reflexivity|contradiction].
      - reflexivity. }
    apply (owned_reindex (two (cfn_ptrs n) (one None))); [exact H1| |].
    + intros id. split; [intros [[i|[]] Hi]; [exists (inl i); exact Hi|discriminate]|]. intros [[i|[]] Hi]. exists (inl i). exact Hi.
    + intros [i|[]] [j|[]] id Hi Hj. f_equal.
      assert (E : inl i = inl j :> N + unit) by (apply (od_inj _ _ H1 (inl i) (inl j) id Hi Hj)). congruence.
Qed.

(** ** Maps *)
Section maps.
  Context (dbg : bool) (TO : trie_ops) (NO : nlm_ops).
  Context (grow : tT TO -> outcome (tT TO)) (label_fail : nT NO -> N -> list N -> outcome (nT NO)).
  Context (own : nT NO -> Prop) (destroy : nT NO -> outcome heap).
  Context (Hn : nlm_own NO own destroy) (Hf : fail_own own label_fail).
  Notation map_st := (map_st TO NO).
  (** The blocks of the store have owners, and a map that is not initialised has none. *)
  Definition mown (m : map_st) : Prop := own (m_nlm _ _ m) /\
    (m_ready _ _ m = false -> t_size TO (m_trie _ _ m) = 0 /\ forall id, hp_find (n_heap NO (m_nlm _ _ m)) id = None).
  Definition mready (m : map_st) : Prop := own (m_nlm _ _ m) /\ m_ready _ _ m = true.
  Lemma mready_mown m : mready m -> mown m.
  Proof. intros [H1 H2]. split; [exact H1|]. congruence. Qed.

  Lemma expand_own x t n x' t' n' : own n -> expand_if_needed TO NO x t n = Ret (x', t', n') -> own n'.
  Proof.
    intros H E. unfold expand_if_needed in E. destruct (t_kind TO); [|injection E as _ _ <-; exact H].
    destruct (negb _); [injection E as _ _ <-; exact H|]. apply bind_inv in E as ([nm t1] & _ & E).
    apply bind_inv in E as (y & _ & E). apply bind_inv in E as (n1 & En & E). injection E as _ _ <-.
    apply (no_expand _ _ _ Hn n nm n1 H En).
  Qed.
  Lemma step_own x t n x' t' n' : own n -> add_step TO NO x t n = Ret (x', t', n') -> own n'.
  Proof.
    intros H E. unfold add_step in E. apply bind_inv in E as ([[added y] t1] & _ & E).
    destruct added; [|injection E as _ _ <-; exact H]. apply bind_inv in E as ([[y1 t2] n1] & Ee & E).
    pose proof (expand_own _ _ _ _ _ _ H Ee) as H1. destruct (t_kind TO); [injection E as _ _ <-; exact H1|].
    apply bind_inv in E as ([] & _ & E). apply bind_inv in E as (n2 & En & E). injection E as _ _ <-.
    apply (no_dummy _ _ _ Hn n1 n2 H1 En).
  Qed.
  Lemma steps_own lambda t n x mtch x' mtch' t' n' : own n ->
    update_steps TO NO lambda t n x mtch = Ret (x', mtch', t', n') -> own n'.
  Proof.
    intros H E. unfold update_steps in E.
    apply (loop_ret _ (fun '(_, _, _, n) => own n) (fun '(_, _, _, n) => own n)) in E; [exact E|exact H|].
    intros [[[y mt] t1] n1] H1. destruct (_ <=? _); [|exact H1].
    destruct (add_step TO NO y t1 n1) as [[[y1 t2] n2]| | | |] eqn:Ea; cbn [bind]; try exact Logic.I.
    eapply step_own; eassumption.
  Qed.
  Lemma until_own j : forall lambda t n x mtch x' t' n', own n ->
    steps_until TO NO j lambda t n x mtch = Ret (Some (x', t', n')) -> own n'.
  Proof.
    induction j as [|j IH]; intros lambda t n x mtch x' t' n' H E; cbn [steps_until] in E.
    - destruct (_ <=? _); [|discriminate]. injection E as _ _ <-. exact H.
    - destruct (_ <=? _); [|discriminate]. apply bind_inv in E as ([[y t1] n1] & Ea & E).
      eapply IH; [|exact E]. eapply step_own; eassumption.
  Qed.
  Lemma leaf_own x symb k t n p x' t' n' : own n -> add_leaf TO NO x symb k t n = Ret (p, x', t', n') -> own n'.
  Proof.
    intros H E. unfold add_leaf in E. apply bind_inv in E as ([[added y] t1] & _ & E).
    destruct added; [|injection E as _ _ _ <-; exact H]. apply bind_inv in E as ([[y1 t2] n1] & Ee & E).
    pose proof (expand_own _ _ _ _ _ _ H Ee) as H1. destruct (t_kind TO).
    - apply bind_inv in E as ([q n2] & En & E). injection E as _ _ _ <-. apply (no_insert _ _ _ Hn n1 _ _ _ _ H1 En).
    - apply bind_inv in E as ([] & _ & E). apply bind_inv in E as ([q n2] & En & E). injection E as _ _ _ <-.
      apply (no_append _ _ _ Hn n1 _ _ _ H1 En).
  Qed.
  Lemma first_own k t n p t' n' : own n -> add_first TO NO k t n = Ret (p, t', n') -> own n'.
  Proof.
    intros H E. unfold add_first in E. apply bind_inv in E as (t1 & _ & E). destruct (t_kind TO).
    - apply bind_inv in E as (r & _ & E). apply bind_inv in E as ([q n2] & En & E). injection E as _ _ <-.
      apply (no_insert _ _ _ Hn n _ _ _ _ H En).
    - apply bind_inv in E as ([q n2] & En & E). injection E as _ _ <-. apply (no_append _ _ _ Hn n _ _ _ H En).
  Qed.
  Lemma body_own m x k r : mready m -> update_body dbg TO NO (m, x, k) = Ret r ->
    match r with inl (m', _, _) => mready m' | inr (_, m') => mready m' end.
  Proof.
    intros [H Hr] E. unfold update_body in E. destruct k as [|c k].
    { apply bind_inv in E as (v & _ & E). injection E as <-. split; assumption. }
    apply bind_inv in E as ([[p|] mtch] & _ & E); [injection E as <-; split; assumption|].
    apply bind_inv in E as ([[[y mt] t] n] & Es & E). pose proof (steps_own _ _ _ _ _ _ _ _ _ H Es) as H1.
    apply bind_inv in E as (c' & _ & E). apply bind_inv in E as (code & _ & E). apply bind_inv in E as ([[codes nc] th] & _ & E).
    destruct th; [injection E as <-; split; assumption|]. apply bind_inv in E as (symb & _ & E).
    apply bind_inv in E as ([[[p y'] t'] n'] & El & E). pose proof (leaf_own _ _ _ _ _ _ _ _ _ H1 El) as H2.
    destruct p; injection E as <-; split; assumption.
  Qed.
  Lemma new_own cb lambda m : map_new TO NO cb lambda = Ret m -> mready m.
  Proof.
    intros E. unfold map_new in E. apply bind_inv in E as ([] & _ & E). apply bind_inv in E as (cl & _ & E).
    apply bind_inv in E as (t & _ & E). apply bind_inv in E as (n & En & E). apply bind_inv in E as (codes & _ & E).
    injection E as <-. split; [apply (no_new _ _ _ Hn _ _ En)|reflexivity].
  Qed.
  Lemma update_own m k r m' : mown m -> map_update dbg TO NO m k = Ret (r, m') -> mready m'.
  Proof.
    intros H E. unfold map_update in E. apply bind_inv in E as ([] & _ & E). destruct (N.eqb_spec (t_size TO (m_trie _ _ m)) 0) as [|Hs].
    - apply bind_inv in E as (m1 & E1 & E). apply bind_inv in E as ([[p t] n] & Ea & E). injection E as _ <-.
      assert (H1 : mready m1).
      { destruct (m_ready _ _ m) eqn:Er; cbn [negb] in E1; [injection E1 as <-; split; [apply H|exact Er]|].
        apply (new_own _ _ _ E1). }
      split; [apply (first_own _ _ _ _ _ _ (proj1 H1) Ea)|apply H1].
    - apply bind_inv in E as (root & _ & E).
      assert (H1 : mready m). { split; [apply H|]. destruct (m_ready _ _ m) eqn:Er; [reflexivity|]. destruct Hs. apply (proj2 H Er). }
      apply (loop_ret _ (fun '(m, _, _) => mready m) (fun '(_, m) => mready m)) in E; [exact E|exact H1|].
      intros [[m1 x] k1] Hm. destruct (update_body dbg TO NO (m1, x, k1)) as [[[[m2 x2] k2]|[r2 m2]]| | | |] eqn:Eb; try exact Logic.I.
      + apply (body_own _ _ _ _ Hm Eb).
      + apply (body_own _ _ _ _ Hm Eb).
  Qed.
  Lemma fail_in_own s m x k m' : mready m -> fail_in dbg TO NO grow label_fail s (m, x, k) = Ret (Some m') -> mready m'.
  Proof.
    intros [H Hr] E. unfold fail_in in E. destruct k as [|c k]; [discriminate|].
    apply bind_inv in E as ([[p|] mtch] & _ & E); [discriminate|].
    destruct s as [|i j g|i g|i j|i|i].
    - discriminate.
    - apply bind_inv in E as (r & Es & E). destruct r as [[[y t] n]|]; [|discriminate].
      apply bind_inv in E as (t1 & _ & E). injection E as <-. split; [eapply until_own; eassumption|exact Hr].
    - apply bind_inv in E as ([[[y mt] t] n] & Es & E). pose proof (steps_own _ _ _ _ _ _ _ _ _ H Es) as H1.
      apply bind_inv in E as (c' & _ & E). apply bind_inv in E as (code & _ & E). apply bind_inv in E as ([[codes nc] th] & _ & E).
      destruct th; [discriminate|]. apply bind_inv in E as (t1 & _ & E). injection E as <-. split; assumption.
    - apply bind_inv in E as (r & Es & E). destruct r as [[[y t] n]|]; [|discriminate].
      pose proof (until_own _ _ _ _ _ _ _ _ _ H Es) as H1. apply bind_inv in E as ([[added y1] t1] & _ & E).
      destruct (t_kind TO); [discriminate|]. destruct added; [|discriminate]. apply bind_inv in E as (n1 & En & E).
      injection E as <-. split; [apply (Hf _ _ _ _ H1 En)|exact Hr].
    - apply bind_inv in E as ([[[y mt] t] n] & Es & E). pose proof (steps_own _ _ _ _ _ _ _ _ _ H Es) as H1.
      apply bind_inv in E as (c' & _ & E). apply bind_inv in E as (code & _ & E). apply bind_inv in E as ([[codes nc] th] & _ & E).
      destruct th; [discriminate|]. apply bind_inv in E as (symb & _ & E). apply bind_inv in E as ([[added y1] t1] & _ & E).
      destruct added; [|discriminate]. cbn [negb] in E. destruct (t_kind TO); [|discriminate].
      destruct (t_needs_to_expand TO t1); [|discriminate]. injection E as <-. split; assumption.
    - apply bind_inv in E as ([[[y mt] t] n] & Es & E). pose proof (steps_own _ _ _ _ _ _ _ _ _ H Es) as H1.
      apply bind_inv in E as (c' & _ & E). apply bind_inv in E as (code & _ & E). apply bind_inv in E as ([[codes nc] th] & _ & E).
      destruct th; [discriminate|]. apply bind_inv in E as (symb & _ & E). apply bind_inv in E as ([[added y1] t1] & _ & E).
      destruct added; [|discriminate]. cbn [negb] in E. apply bind_inv in E as ([[y2 t2] n2] & Ee & E).
      apply bind_inv in E as (n3 & En & E). injection E as <-.
      split; [apply (Hf _ _ _ _ (expand_own _ _ _ _ _ _ H1 Ee) En)|exact Hr].
  Qed.
  Lemma update_oom_own f m k r m' : mown m -> update_oom dbg TO NO grow label_fail f m k = Ret (r, m') -> mown m'.
  Proof.
    intros H E. unfold update_oom in E. apply bind_inv in E as ([] & Hk & E).
    assert (Hup : forall m1 r1, (let* r := map_update dbg TO NO m k in let '(r, m) := r in Ret (Fine r, m)) = Ret (r1, m1) -> mown m1).
    { intros m1 r1 E1. apply bind_inv in E1 as ([r2 m2] & Eu & E1). injection E1 as _ <-. apply mready_mown, (update_own _ _ _ _ H Eu). }
    destruct (N.eqb_spec (t_size TO (m_trie _ _ m)) 0) as [|Hs].
    - destruct f as [s|]; [|eapply Hup; exact E]. destruct s as [|i j g|i g|i j|i|[|i]]; try (eapply Hup; exact E).
      + destruct (m_ready _ _ m); cbn [negb] in E; [eapply Hup; exact E|]. injection E as _ <-. exact H.
      + apply bind_inv in E as (m1 & E1 & E). apply bind_inv in E as (t & _ & E). apply bind_inv in E as (root & _ & E).
        apply bind_inv in E as (n & En & E). injection E as _ <-.
        assert (H1 : mready m1).
        { destruct (m_ready _ _ m) eqn:Er; cbn [negb] in E1; [injection E1 as <-; split; [apply H|exact Er]|].
          apply (new_own _ _ _ E1). }
        apply mready_mown. split; [apply (Hf _ _ _ _ (proj1 H1) En)|apply H1].
    - apply bind_inv in E as (root & _ & E).
      assert (H1 : mready m). { split; [apply H|]. destruct (m_ready _ _ m) eqn:Er; [reflexivity|]. destruct Hs. apply (proj2 H Er). }
      apply mready_mown.
      apply (loop_ret _ (fun '(_, (m, _, _)) => mready m) (fun '(_, m) => mready m)) in E; [exact E|exact H1|].
      assert (Hgo : forall f1 m1 x k1, mready m1 ->
        match (let* r := update_body dbg TO NO (m1, x, k1) in
               match r with inl st => Ret (inl (f1, st)) | inr (r, m) => Ret (inr (Fine r, m)) end)
          : outcome (option (nat * site) * (map_st * N * list N) + oom_result * map_st) with
        | Ret (inl (_, (m, _, _))) => mready m | Ret (inr (_, m)) => mready m | _ => True end).
      { intros f1 m1 x k1 Hm. destruct (update_body dbg TO NO (m1, x, k1)) as [[[[m2 x2] k2]|[r2 m2]]| | | |] eqn:Eb; cbn [bind]; try exact Logic.I.
        - apply (body_own _ _ _ _ Hm Eb).
        - apply (body_own _ _ _ _ Hm Eb). }
      intros [f1 [[m1 x] k1]] Hm. unfold oom_body. destruct f1 as [[[|i] s]|].
      + destruct (fail_in dbg TO NO grow label_fail s (m1, x, k1)) as [[m2|]| | | |] eqn:Ef; cbn [bind]; try exact Logic.I.
        * apply (fail_in_own _ _ _ _ _ Hm Ef).
        * apply (Hgo None m1 x k1 Hm).
      + apply (Hgo (Some (i, s)) m1 x k1 Hm).
      + apply (Hgo None m1 x k1 Hm).
  Qed.
  Lemma write_own m p w m' : mown m -> map_write TO NO m p w = Ret m' -> mown m'.
  Proof.
    intros [H1 H2] E. unfold map_write in E. apply bind_inv in E as (h & Eh & E). injection E as <-.
    split; cbn [m_nlm m_ready m_trie]; [apply (no_write _ _ _ Hn _ _ _ _ H1 Eh)|].
    intros Er. destruct (H2 Er) as [_ Hh]. unfold hp_write, hp_block in Eh. rewrite Hh in Eh. discriminate.
  Qed.
  Lemma mown_destroy m : mown m -> exists h, destroy (m_nlm _ _ m) = Ret h /\ forall id, hp_find h id = None.
  Proof. intros [H _]. apply (no_destroy _ _ _ Hn _ H). Qed.
End maps.

(** ** Instantiations *)
Lemma inst_own vs i : exists own, nlm_own (i_nlm vs i) own (i_label_destroy vs i) /\ fail_own own (i_label_fail vs i) /\
  forall n, own (i_nlm_moved vs i n) /\ forall id, hp_find (n_heap (i_nlm vs i) (i_nlm_moved vs i n)) id = None.
Proof.
  assert (Hb : fail_own (NO := pbn_ops vs) pbn_own (fun n _ _ => pbn_fail n)).
  { intros n x k n' H E. injection E as <-. exact H. }
  assert (Hc : forall cs, fail_own (NO := cbn_ops cs vs) cbn_own (fun n x k => cbn_fail cs vs n x k)).
  { intros cs n x k n' H E. unfold cbn_fail, decompose_value in E. cbn [nT cbn_ops] in *. apply bind_inv in E as (c & _ & E).
    apply bind_inv in E as (bit & _ & E). apply bind_inv in E as ([] & _ & E). apply bind_inv in E as (c' & _ & E).
    apply bind_inv in E as (ch & _ & E). apply bind_inv in E as (vsz & _ & E). injection E as <-. exact H. }
  assert (Hp : fail_own (NO := pfn_ops vs) pfn_own (fun n _ _ => Ret n)).
  { intros n x k n' H E. injection E as <-. exact H. }
  assert (Hd : forall cs, fail_own (NO := cfn_ops cs vs) cfn_own (fun n _ _ => cfn_fail cs n)).
  { intros cs n x k n' H E. unfold cfn_fail, decompose_value in E. cbn [nT cfn_ops] in *. apply bind_inv in E as (buf & _ & E).
    injection E as <-. exact H. }
  assert (Mb : forall n, pbn_own (pbn_moved n)) by (intros n; apply owned_none; intros x; apply cell_new).
  assert (Mc : forall n, cbn_own (cbn_moved n)) by (intros n; apply owned_none; intros x; apply cell_new).
  assert (Mp : forall n, pfn_own (pfn_moved n)) by (intros n; apply owned_none; intros x; apply cell_new).
  assert (Md : forall n, cfn_own (cfn_moved n)) by (intros n; apply owned_none; intros [x|[]]; [apply cell_new|reflexivity]).
  destruct i as [[H mf|H P mf|H mf|H P mf] [c|]];
    first [exists pbn_own; split; [apply pbn_nlm_own|split; [exact Hb|intros n; split; [apply Mb|intros id; apply hp_find_empty]]]
          |exists cbn_own; split; [apply cbn_nlm_own|split; [apply Hc|intros n; split; [apply Mc|intros id; apply hp_find_empty]]]
          |exists pfn_own; split; [apply pfn_nlm_own|split; [exact Hp|intros n; split; [apply Mp|intros id; apply hp_find_empty]]]
          |exists cfn_own; split; [apply cfn_nlm_own|split; [apply Hd|intros n; split; [apply Md|intros id; apply hp_find_empty]]]].
Qed.
Lemma i_default_size dbg i : t_size (i_trie dbg i) (t_default (i_trie dbg i)) = 0.
Proof. destruct i as [[H mf|H P mf|H mf|H P mf] l]; reflexivity. Qed.
Lemma i_moved_size dbg i t : t_size (i_trie dbg i) (i_trie_moved dbg i t) = t_size (i_trie dbg i) t.
Proof. destruct i as [[H mf|H P mf|H mf|H P mf] l]; reflexivity. Qed.
