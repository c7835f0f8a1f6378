(** The map over any store meeting its contract refines the dictionary. *)
From Verif.Proofs Require Export PdtP CountP PairP.
From Verif.Proofs Require Import VByteP.
Local Open Scope N_scope.

Definition bytes (k : list N) : Prop := Forall (fun c => c < 256) k.

(** ** The byte codes *)
Record codes_ok (codes : vec N) (num : N) (S : gset N) : Prop := {
  co_len : vlen codes = 256;
  co_in : forall c, c ∈ S -> c < 256 /\ vnth codes c < num;
  co_out : forall c, c < 256 -> c ∉ S -> vnth codes c = 255;
  co_inj : forall c d, c ∈ S -> d ∈ S -> vnth codes c = vnth codes d -> c = d;
  co_0 : 0 ∈ S /\ vnth codes 0 = 0;
  co_num : num = N.of_nat (size S);
  co_max : num <= 255 }.

Lemma codes_ok_init : codes_ok (vupd (vnew 256 255) 0 0) 1 {[ 0 ]}.
Proof.
  split.
  - reflexivity.
  - intros c ->%elem_of_singleton. rewrite vnth_upd_eq. lia.
  - intros c Hc Hn. rewrite vnth_upd_ne by set_solver. apply vnth_new.
  - intros c d ->%elem_of_singleton ->%elem_of_singleton _. reflexivity.
  - split; [set_solver|apply vnth_upd_eq].
  - rewrite size_singleton. reflexivity.
  - lia.
Qed.
Lemma codes_ok_ext codes num S c : codes_ok codes num S -> c < 256 -> c ∉ S -> num < 255 ->
  codes_ok (vupd codes c (num mod 256)) (num + 1) ({[ c ]} ∪ S).
Proof.
  intros H Hc Hn Hlt. rewrite N.mod_small by lia.
  assert (Hd : forall d, d ∈ S -> vnth (vupd codes c num) d = vnth codes d).
  { intros d Hd. apply vnth_upd_ne. congruence. }
  split.
  - rewrite vlen_upd. apply H.
  - intros d [->%elem_of_singleton|Hd']%elem_of_union.
    + rewrite vnth_upd_eq. lia.
    + rewrite Hd by exact Hd'. pose proof (co_in _ _ _ H d Hd'). lia.
  - intros d Hd256 Hd'. rewrite vnth_upd_ne by set_solver. apply (co_out _ _ _ H); set_solver.
  - intros d d' [->%elem_of_singleton|H1]%elem_of_union [->%elem_of_singleton|H2]%elem_of_union; [reflexivity| | |].
    + rewrite vnth_upd_eq, Hd by exact H2. pose proof (co_in _ _ _ H d' H2). lia.
    + rewrite vnth_upd_eq, Hd by exact H1. pose proof (co_in _ _ _ H d H1). lia.
    + rewrite !Hd by assumption. apply (co_inj _ _ _ H); assumption.
  - destruct (co_0 _ _ _ H) as [H0 H1]. split; [set_solver|]. rewrite Hd by exact H0. exact H1.
  - rewrite size_union by set_solver. rewrite size_singleton. pose proof (co_num _ _ _ H). lia.
  - lia.
Qed.
Lemma codes_ok_255 codes num S c : codes_ok codes num S -> c < 256 -> (vnth codes c =? 255) = negb (bool_decide (c ∈ S)).
Proof.
  intros H Hc. destruct (decide (c ∈ S)) as [Hin|Hn].
  - rewrite bool_decide_eq_true_2 by exact Hin. simpl. apply N.eqb_neq.
    pose proof (co_in _ _ _ H c Hin). pose proof (co_max _ _ _ H). lia.
  - rewrite bool_decide_eq_false_2 by exact Hn. simpl. apply N.eqb_eq. apply (co_out _ _ _ H); assumption.
Qed.

(** ** Encoding of tree nodes as trie paths *)
Section enc.
  Context (e : N).
  Definition esym (codes : vec N) (m : nat) (c : N) : N := vnth codes c + (N.of_nat m mod 2 ^ e) * 256.
  Definition esteps (m : nat) : nat := N.to_nat (N.of_nat m / 2 ^ e).
  Fixpoint enc (codes : vec N) (π : node) : list N :=
    match π with
    | [] => []
    | (m, c) :: π => esym codes m c :: replicate (esteps m) 255 ++ enc codes π
    end.
  Definition inS (S : gset N) (π : node) : Prop := Forall (fun ed : edge => snd ed ∈ S) π.

  Lemma dvalid_inS S D π : dvalid S D -> is_Some (D !! π) -> inS S π.
  Proof.
    intros HD. induction π as [|[m c] π IH]; intros [[l v] Hl]; [constructor|].
    destruct (dv_node _ _ HD m c π l v Hl) as ((l' & v' & a & d & r & Hl' & _) & Hc & _).
    constructor; [exact Hc|]. apply IH. eauto.
  Qed.

  Context (codes : vec N) (num : N) (S : gset N).
  Hypothesis HC : codes_ok codes num S.

  Lemma esym_code m c : c ∈ S -> esym codes m c mod 256 = vnth codes c.
  Proof.
    intros Hc. unfold esym. rewrite N.mod_add by discriminate. apply N.mod_small.
    pose proof (co_in _ _ _ HC c Hc). pose proof (co_max _ _ _ HC). lia.
  Qed.
  Lemma esym_ne m c : c ∈ S -> esym codes m c <> 255.
  Proof.
    intros Hc E. pose proof (esym_code m c Hc) as H. rewrite E in H. change (255 mod 256) with 255 in H.
    pose proof (co_in _ _ _ HC c Hc). pose proof (co_max _ _ _ HC). lia.
  Qed.
  Lemma enc_head π r : inS S π -> enc codes π <> 255 :: r.
  Proof.
    intros Hp. destruct π as [|[m c] π]; simpl; [discriminate|]. intros [= E _].
    apply Forall_cons_1 in Hp as [Hc _]. apply (esym_ne m c Hc E).
  Qed.
  Lemma steps_inj j j' p p' : (forall r, p <> 255 :: r) -> (forall r, p' <> 255 :: r) ->
    replicate j 255 ++ p = replicate j' 255 ++ p' -> j = j' /\ p = p'.
  Proof.
    intros Hp Hp'. revert j'. induction j as [|j IH]; intros [|j']; simpl; intros E.
    - auto.
    - destruct (Hp _ E).
    - destruct (Hp' _ (eq_sym E)).
    - injection E as E. destruct (IH j' E) as [-> ->]. auto.
  Qed.
  Lemma enc_inj π π' : inS S π -> inS S π' -> enc codes π = enc codes π' -> π = π'.
  Proof.
    revert π'. induction π as [|[m c] π IH]; intros [|[m' c'] π'] Hp Hp' E; simpl in E; try discriminate; [reflexivity|].
    pose proof Hp as [Hc Ht]%Forall_cons_1. pose proof Hp' as [Hc' Ht']%Forall_cons_1.
    injection E as E1 E2. simpl in *.
    assert (Hcode : vnth codes c = vnth codes c').
    { rewrite <- (esym_code m c Hc), <- (esym_code m' c' Hc'), E1. reflexivity. }
    assert (c = c') as <- by (apply (co_inj _ _ _ HC); assumption).
    destruct (steps_inj _ _ _ _ (fun r => enc_head π r Ht) (fun r => enc_head π' r Ht') E2) as [E3 E4].
    rewrite (IH π' Ht Ht' E4). f_equal. f_equal.
    unfold esym in E1. unfold esteps in E3. apply N2Nat.inj in E3.
    assert (E5 : N.of_nat m mod 2 ^ e = N.of_nat m' mod 2 ^ e).
    { apply N.add_cancel_l in E1. apply N.mul_cancel_r in E1; [exact E1|discriminate]. }
    pose proof (pow2_pos e).
    assert (N.of_nat m = N.of_nat m'); [|lia].
    rewrite (N.div_mod (N.of_nat m) (2 ^ e)), (N.div_mod (N.of_nat m') (2 ^ e)) by lia. congruence.
  Qed.
  Lemma senc_inj j j' π π' : inS S π -> inS S π' ->
    replicate j 255 ++ enc codes π = replicate j' 255 ++ enc codes π' -> j = j' /\ π = π'.
  Proof.
    intros Hp Hp' E.
    destruct (steps_inj _ _ _ _ (fun r => enc_head π r Hp) (fun r => enc_head π' r Hp') E) as [-> E4].
    split; [reflexivity|]. apply enc_inj; assumption.
  Qed.
  Lemma enc_ext codes' π : inS S π -> (forall c, c ∈ S -> vnth codes' c = vnth codes c) ->
    enc codes' π = enc codes π.
  Proof.
    intros Hp Hext. induction π as [|[m c] π IH]; [reflexivity|].
    apply Forall_cons_1 in Hp as [Hc Ht]. simpl in *. rewrite (IH Ht). unfold esym. rewrite Hext by exact Hc. reflexivity.
  Qed.
  Lemma esym_lt m c : c ∈ S -> e <= 39 -> esym codes m c < 2 ^ (8 + e).
  Proof.
    intros Hc He. pose proof (co_in _ _ _ HC c Hc). pose proof (co_max _ _ _ HC).
    unfold esym. pose proof (pow2_pos e). pose proof (N.mod_lt (N.of_nat m) (2 ^ e) ltac:(lia)).
    rewrite N.pow_add_r. change (2 ^ 8) with 256. nia.
  Qed.
  Lemma make_symb_ok dbg m c : c ∈ S -> e <= 39 ->
    make_symb dbg codes c (N.of_nat m mod 2 ^ e) = Ret (esym codes m c).
  Proof.
    intros Hc He. pose proof (co_in _ _ _ HC c Hc) as [H1 H2]. pose proof (co_max _ _ _ HC).
    unfold make_symb. rewrite vget_ok by (rewrite (co_len _ _ _ HC); exact H1). rewrite bind_ret.
    assert (assert_dbg dbg (negb (vnth codes c =? 255)) = Ret tt) as ->.
    { unfold assert_dbg. destruct dbg; [|reflexivity]. apply assert_true.
      destruct (N.eqb_spec (vnth codes c) 255); [lia|reflexivity]. }
    rewrite bind_ret. f_equal. pose proof (pow2_pos e). pose proof (N.mod_lt (N.of_nat m) (2 ^ e) ltac:(lia)).
    assert (2 ^ e <= 2 ^ 39) by (apply pow2_le, He).
    rewrite shl_mul.
    2:{ apply N.lt_le_trans with (2 ^ 39 * 2 ^ 8); [|discriminate].
        apply N.mul_lt_mono_pos_r; [reflexivity|]. lia. }
    rewrite N.lor_comm, lor_add_disjoint by (change (2 ^ 8) with 256; lia). unfold esym.
    change (2 ^ 8) with 256. lia.
  Qed.
End enc.

Lemma div_sub_pow a q : q <> 0 -> q <= a -> (a - q) / q = a / q - 1 /\ (a - q) mod q = a mod q /\ 1 <= a / q.
Proof.
  intros Hq Ha. assert (E : a = (a - q) + 1 * q) by lia.
  assert (E2 : a / q = (a - q) / q + 1). { rewrite E at 1. rewrite N.div_add by exact Hq. reflexivity. }
  assert (E3 : a mod q = (a - q) mod q). { rewrite E at 1. apply N.mod_add. exact Hq. }
  lia.
Qed.

(** What a point predicate says of the value of a key. *)
Definition mpt (TO : trie_ops) (NO : nlm_ops) (e : N) {Q : Type} (npt : nT NO -> N -> Q -> Prop)
    (m : map_st TO NO) (D : dmap) (loc : locmap) (k : list N) (p : Q) : Prop :=
  exists π x, is_Some (D !! π) /\ keyof D π = k /\ loc !! enc e (m_codes _ _ m) π = Some x /\ npt (m_nlm _ _ m) x p.

Section map_proofs.
  Context (dbg : bool) (TO : trie_ops) (NO : nlm_ops) (L : lims) (mf e : N) (B : bool) {Q : Type} (stable : nT NO -> N -> Q -> Prop).
  Context (srep : N -> tT TO -> nT NO -> locmap -> labmap -> Prop) (sfresh : N -> tT TO -> nT NO -> Prop).
  Context (npt : nT NO -> N -> ptr -> Prop).
  Hypothesis HS : store_ok TO NO L mf (8 + e) B stable srep sfresh npt.
  Hypothesis He : e <= 39.
  Notation vs := (n_vs NO).
  Notation map_st := (map_st TO NO).

  Lemma lam_pos : 0 < 2 ^ e. Proof. apply pow2_pos. Qed.
  Lemma lam_64 : 2 ^ e < 2 ^ 64. Proof. apply pow2_lt. lia. Qed.
  Lemma step_lt : step_symb < 2 ^ (8 + e).
  Proof. rewrite N.pow_add_r. pose proof lam_pos. change (2 ^ 8) with 256. unfold step_symb. nia. Qed.

  (** *** Steps *)
  Lemma pref_steps b t n loc lab j p : srep b t n loc lab -> is_Some (loc !! (replicate j 255 ++ p)) -> is_Some (loc !! p).
  Proof.
    intros Hs. induction j as [|j IH]; simpl; [auto|]. intros H. apply IH.
    apply (so_pref _ _ _ _ _ _ _ _ _ _ HS b t n loc lab _ _ Hs H).
  Qed.
  Lemma replicate_snoc (j : nat) (p : list N) : replicate (Datatypes.S j) 255 ++ p = replicate j 255 ++ 255 :: p.
  Proof.
    rewrite replicate_S_end. rewrite <- app_assoc. reflexivity.
  Qed.
  Lemma id_not_nil b t n loc lab p x : srep b t n loc lab -> loc !! p = Some x -> (x =? nil_id) = false.
  Proof.
    intros Hs Hp. apply N.eqb_neq. pose proof (so_id _ _ _ _ _ _ _ _ _ _ HS b t n loc lab p x Hs Hp) as H.
    intros ->. revert H. unfold nil_id. apply N.le_ngt. discriminate.
  Qed.

  Lemma find_steps_ok b t n loc lab p x mtch : srep b t n loc lab -> loc !! p = Some x -> mtch < 2 ^ 64 ->
    find_steps TO (2 ^ e) t x mtch =
    Ret (match loc !! (replicate (N.to_nat (mtch / 2 ^ e)) 255 ++ p) with
         | Some y => Some (y, mtch mod 2 ^ e) | None => None end).
  Proof.
    intros Hs Hp Hm. apply wp_eq. unfold find_steps. pose proof lam_pos as Hlam.
    set (goal := replicate (N.to_nat (mtch / 2 ^ e)) 255 ++ p).
    apply wp_loop with (mu := fun '(_, m) => m) (I := fun '(y, m) => m <= mtch /\ m mod 2 ^ e = mtch mod 2 ^ e /\
      exists q, loc !! q = Some y /\ replicate (N.to_nat (m / 2 ^ e)) 255 ++ q = goal).
    - split; [lia|]. split; [reflexivity|]. exists p. auto.
    - exact Hm.
    - intros [y m] (Hle & Hmod & q & Hq & Hg). destruct (N.leb_spec (2 ^ e) m) as [Hge|Hlt].
      + destruct (div_sub_pow m (2 ^ e) ltac:(lia) Hge) as (E1 & E2 & E3).
        rewrite (so_find _ _ _ _ _ _ _ _ _ _ HS b t n loc lab q y step_symb Hs Hq step_lt), bind_ret.
        assert (Hg' : replicate (N.to_nat ((m - 2 ^ e) / 2 ^ e)) 255 ++ 255 :: q = goal).
        { rewrite <- Hg, <- replicate_snoc. f_equal. f_equal. lia. }
        destruct (loc !! (step_symb :: q)) as [z|] eqn:Ez; cbn [from_option]; unfold id.
        * rewrite (id_not_nil b t n loc lab _ z Hs Ez). apply wp_ret.
          assert (Esub : sub64 m (2 ^ e) = m - 2 ^ e).
          { unfold sub64, UINT64_MAX. rewrite w64_mod. change (18446744073709551615 + 1) with (2 ^ 64).
            pose proof lam_64. replace (m + (2 ^ 64 - 2 ^ e)) with ((m - 2 ^ e) + 1 * 2 ^ 64) by lia.
            rewrite N.mod_add by discriminate. apply N.mod_small. lia. }
          rewrite Esub. split; [|lia]. split; [lia|]. split; [congruence|]. exists (255 :: q). auto.
        * rewrite N.eqb_refl. apply wp_ret. destruct (loc !! goal) as [g|] eqn:Eg; [|reflexivity].
          exfalso. rewrite <- Hg' in Eg. destruct (pref_steps b t n loc lab _ _ Hs (mk_is_Some _ _ Eg)) as [z Hz].
          change (255 :: q) with (step_symb :: q) in Hz. congruence.
      + apply wp_ret. rewrite N.div_small in Hg by exact Hlt. simpl in Hg. rewrite <- Hg, Hq.
        rewrite N.mod_small in Hmod by exact Hlt. congruence.
  Qed.

  Lemma keeps_refl n loc : keeps NO stable n n loc loc.
  Proof. intros q x p Hx Hp. eauto. Qed.
  Lemma keeps_trans n1 n2 n3 l1 l2 l3 : keeps NO stable n1 n2 l1 l2 -> keeps NO stable n2 n3 l2 l3 ->
    keeps NO stable n1 n3 l1 l3.
  Proof.
    intros H1 H2 q x p Hx Hp. destruct (H1 q x p Hx Hp) as (x' & Hx' & Hp').
    apply (H2 q x' p Hx' Hp').
  Qed.

  Lemma size_dom_le (l l' : locmap) (q : list N) : dom l' = {[ q ]} ∪ dom l ->
    (size l' <= 1 + size l)%nat.
  Proof.
    intros H. rewrite <- !size_dom, H. pose proof (size_union_alt ({[ q ]} : gset (list N)) (dom l)) as E.
    rewrite E, size_singleton. assert (size (dom l ∖ {[ q ]}) <= size (dom l))%nat; [|lia].
    apply subseteq_size. set_solver.
  Qed.

  Lemma of_nat_mono (x y : nat) : (x <= y)%nat -> N.of_nat x <= N.of_nat y.
  Proof. clear. lia. Qed.
  Lemma update_steps_ok (b : N) (t : tT TO) (n : nT NO) (loc : locmap) (lab : labmap) (p : list N) (x mtch : N) (F : gset (list N)) : srep b t n loc lab -> loc !! p = Some x -> mtch < 2 ^ 64 ->
    dom loc ⊆ F -> (forall i, N.of_nat i <= mtch / 2 ^ e -> replicate i 255 ++ p ∈ F) ->
    N.of_nat (size F) + 1 < l_max L ->
    wpx L (update_steps TO NO (2 ^ e) t n x mtch) (fun '(x', m', t', n') => m' = mtch mod 2 ^ e /\
      exists b' loc', b <= b' /\ srep b' t' n' loc' lab /\
        loc' !! (replicate (N.to_nat (mtch / 2 ^ e)) 255 ++ p) = Some x' /\
        (forall q, is_Some (loc' !! q) -> is_Some (loc !! q) \/
           exists i, N.of_nat i <= mtch / 2 ^ e /\ q = replicate i 255 ++ p) /\
        (forall q, is_Some (loc !! q) -> is_Some (loc' !! q)) /\ keeps NO stable n n' loc loc').
  Proof.
    intros Hs Hp Hm HF1 HF2 Hroom. unfold update_steps. pose proof lam_pos as Hlam.
    apply wpx_loop with (mu := fun '(_, m, _, _) => m) (I := fun '(y, m, t', n') => m <= mtch /\ m mod 2 ^ e = mtch mod 2 ^ e /\
      m / 2 ^ e <= mtch / 2 ^ e /\
      exists b' loc', b <= b' /\ srep b' t' n' loc' lab /\
        loc' !! (replicate (N.to_nat (mtch / 2 ^ e - m / 2 ^ e)) 255 ++ p) = Some y /\
        (forall q, is_Some (loc' !! q) -> is_Some (loc !! q) \/
           exists i, N.of_nat i <= mtch / 2 ^ e /\ q = replicate i 255 ++ p) /\
        (forall q, is_Some (loc !! q) -> is_Some (loc' !! q)) /\ keeps NO stable n n' loc loc').
    - split; [lia|]. split; [reflexivity|]. split; [lia|]. exists b, loc. split; [lia|]. split; [exact Hs|].
      rewrite N.sub_diag. split; [exact Hp|]. split; [auto|]. split; [auto|]. apply keeps_refl.
    - exact Hm.
    - intros [[[y m] t'] n'] (Hle & Hmod & Hdiv & b' & loc' & Hb & Hs' & Hy & Hnew & Hold & Hk).
      assert (Hsz : N.of_nat (size loc') <= N.of_nat (size F)).
      { rewrite <- size_dom. apply of_nat_mono. apply subseteq_size. intros q Hq. apply elem_of_dom in Hq.
        apply Hnew in Hq as [Hq|(i & Hi & ->)]; [apply HF1, elem_of_dom, Hq|apply HF2, Hi]. }
      destruct (N.leb_spec (2 ^ e) m) as [Hge|Hlt].
      + destruct (div_sub_pow m (2 ^ e) ltac:(lia) Hge) as (E1 & E2 & E3).
        apply wpx_bind. eapply wpx_mono.
        { apply (so_step _ _ _ _ _ _ _ _ _ _ HS b' t' n' loc' lab _ y Hs' Hy step_lt). lia. }
        intros [[y2 t2] n2] (b2 & loc2 & Hb2 & Hs2 & Hy2 & Hd2 & Hk2). apply wpx_ret.
        assert (Esub : sub64 m (2 ^ e) = m - 2 ^ e).
        { unfold sub64, UINT64_MAX. rewrite w64_mod. change (18446744073709551615 + 1) with (2 ^ 64).
          pose proof lam_64. replace (m + (2 ^ 64 - 2 ^ e)) with ((m - 2 ^ e) + 1 * 2 ^ 64) by lia.
          rewrite N.mod_add by discriminate. apply N.mod_small. lia. }
        rewrite Esub. split; [|lia]. split; [lia|]. split; [congruence|]. split; [lia|].
        exists b2, loc2. split; [lia|]. split; [exact Hs2|].
        assert (Epath : step_symb :: replicate (N.to_nat (mtch / 2 ^ e - m / 2 ^ e)) 255 ++ p =
                        replicate (N.to_nat (mtch / 2 ^ e - (m - 2 ^ e) / 2 ^ e)) 255 ++ p).
        { replace (N.to_nat (mtch / 2 ^ e - (m - 2 ^ e) / 2 ^ e))
            with (Datatypes.S (N.to_nat (mtch / 2 ^ e - m / 2 ^ e))) by lia. reflexivity. }
        rewrite Epath in *. split; [exact Hy2|]. split.
        { intros q Hq. apply elem_of_dom in Hq. rewrite Hd2 in Hq. apply elem_of_union in Hq as [Hq|Hq].
          - apply elem_of_singleton in Hq as ->. right. eexists. split; [|reflexivity]. lia.
          - apply Hnew. apply elem_of_dom, Hq. }
        split.
        { intros q Hq. apply elem_of_dom. rewrite Hd2. apply elem_of_union_r. apply elem_of_dom. apply Hold, Hq. }
        eapply keeps_trans; eassumption.
      + apply wpx_ret. rewrite N.mod_small in Hmod by exact Hlt. split; [exact Hmod|].
        rewrite (N.div_small m) in * by exact Hlt. rewrite N.sub_0_r in *. exists b', loc'. auto 10.
  Qed.

  (** *** The representation of a non-empty map *)
  Record mrep (m : map_st) (S : gset N) (D : dmap) (M : gmap (list N) (list N))
      (b : N) (loc : locmap) (lab : labmap) : Prop := {
    mr_ready : m_ready _ _ m = true;
    mr_lam : m_lambda _ _ m = 2 ^ e;
    mr_store : srep b (m_trie _ _ m) (m_nlm _ _ m) loc lab;
    mr_codes : codes_ok (m_codes _ _ m) (m_num_codes _ _ m) S;
    mr_D : dvalid S D;
    mr_dict : dict_of D M;
    mr_ne : is_Some (D !! []);
    mr_lab : forall π x, D !! π = Some x -> lab !! enc e (m_codes _ _ m) π = Some x;
    mr_lab2 : forall p x, lab !! p = Some x -> exists π, p = enc e (m_codes _ _ m) π /\ D !! π = Some x;
    mr_nodes : forall p, is_Some (loc !! p) ->
      exists j π, p = replicate j 255 ++ enc e (m_codes _ _ m) π /\ fits e D j π;
    mr_size : m_size _ _ m = w64 (N.of_nat (size M)) }.
  Notation mpt := (MapP.mpt TO NO e npt).
  Notation smpt := (MapP.mpt TO NO e stable).
  (** Nothing that stays true is lost and no node disappears. *)
  Definition kept (m : map_st) (D : dmap) (loc : locmap) (m' : map_st) (D' : dmap) (loc' : locmap) : Prop :=
    (size loc <= size loc')%nat /\ forall k' q, smpt m D loc k' q -> smpt m' D' loc' k' q.

  Definition compat (k l : list N) : Prop := (k = [] /\ l = []) \/ (okey k /\ okey l).

  Lemma mrep_loc m S D M b loc lab π : mrep m S D M b loc lab -> is_Some (D !! π) ->
    exists x, loc !! enc e (m_codes _ _ m) π = Some x.
  Proof.
    intros R [x Hx]. pose proof (mr_lab _ _ _ _ _ _ _ R π x Hx) as H.
    apply (so_lab _ _ _ _ _ _ _ _ _ _ HS _ _ _ _ _ _ _ (mr_store _ _ _ _ _ _ _ R)) in H. exact H.
  Qed.
  Lemma mrep_child m S D M b loc lab π a c : mrep m S D M b loc lab -> is_Some (D !! π) -> c ∈ S ->
    is_Some (loc !! (esym e (m_codes _ _ m) a c :: replicate (esteps e a) 255 ++ enc e (m_codes _ _ m) π)) ->
    is_Some (D !! ((a, c) :: π)).
  Proof.
    intros R Hp Hc H. destruct (mr_nodes _ _ _ _ _ _ _ R _ H) as (j & π' & E & Hp'%fits_some).
    pose proof (mr_codes _ _ _ _ _ _ _ R) as HC. pose proof (mr_D _ _ _ _ _ _ _ R) as HD.
    assert (E' : replicate 0 255 ++ enc e (m_codes _ _ m) ((a, c) :: π) =
       replicate j 255 ++ enc e (m_codes _ _ m) π') by exact E.
    destruct (senc_inj e _ _ S HC 0 j ((a, c) :: π) π') as [_ <-].
    - constructor; [exact Hc|]. apply (dvalid_inS S D π HD Hp).
    - apply (dvalid_inS S D π' HD Hp').
    - exact E'.
    - exact Hp'.
  Qed.

  (** The possible nodes of the map. *)
  Definition paths (m : map_st) (j : nat) (π : node) : list N := replicate j 255 ++ enc e (m_codes _ _ m) π.
  Lemma mrep_slots m S D M b loc lab : mrep m S D M b loc lab ->
    dom loc ⊆ all_slots e (paths m) D /\ N.of_nat (size (all_slots e (paths m) D)) <= node_bound e (dom M).
  Proof.
    intros R. split; [|apply (all_slots_size e _ S); apply R].
    intros q Hq. apply elem_of_dom in Hq. destruct (mr_nodes _ _ _ _ _ _ _ R q Hq) as (j & π & -> & Hf).
    apply (all_slots_in e (paths m) D j π Hf).
  Qed.
  Lemma mrep_count m S D M b loc lab : mrep m S D M b loc lab -> N.of_nat (size loc) <= node_bound e (dom M).
  Proof.
    intros R. destruct (mrep_slots _ _ _ _ _ _ _ R) as [H1 H2]. etransitivity; [|exact H2].
    rewrite <- size_dom. apply of_nat_mono, subseteq_size, H1.
  Qed.

  Lemma compat_split k l c' (k' : list N) : compat k l -> k = c' :: k' -> k <> l ->
    exists a c d r l', k = a ++ c :: r /\ l = a ++ d :: l' /\ c <> d /\ length a = lcp k l /\
      ((c = 0 /\ r = []) \/ (c <> 0 /\ okey r)).
  Proof.
    intros [[-> _]|[Hk Hl]] E Hne; [discriminate|].
    destruct (okey_diff k l Hk Hl Hne) as (a & c & d & r & l' & Ek & El & Hcd & Ha).
    exists a, c, d, r, l'. repeat (split; [assumption|]). rewrite Ek in Hk. apply (okey_skip a c r Hk).
  Qed.
  Lemma compat_child S D π m c l v r : dvalid S D -> D !! ((m, c) :: π) = Some (l, v) ->
    ((c = 0 /\ r = []) \/ (c <> 0 /\ okey r)) -> compat r l.
  Proof.
    intros HD H Hr. destruct (dv_node _ _ HD m c π l v H) as (_ & _ & [[E ->]|[E Hl]]);
      destruct Hr as [[E' ->]|[E' Hk]]; try congruence; [left|right]; auto.
  Qed.
  Lemma advance_split (a r : list N) c k : k = a ++ c :: r -> advance k (N.of_nat (length a)) = c :: r.
  Proof. intros ->. unfold advance. rewrite Nat2N.id, drop_app. reflexivity. Qed.
  Lemma nat_lt_64 (k : list N) j : N.of_nat (length k) < 2 ^ 64 -> (j <= length k)%nat -> N.of_nat j < 2 ^ 64.
  Proof. lia. Qed.

  (** *** find *)
  Theorem map_find_ok m S D M b loc lab k : mrep m S D M b loc lab -> okey k -> bytes k ->
    N.of_nat (length k) < 2 ^ 64 ->
    wp (map_find dbg TO NO m k) (fun r => match r with
      | None => M !! k = None
      | Some p => is_Some (M !! k) /\ mpt m D loc k p end).
  Proof.
    intros R Hk Hb Hlen.
    pose proof (mr_store _ _ _ _ _ _ _ R) as Hs. pose proof (mr_codes _ _ _ _ _ _ _ R) as HC.
    pose proof (mr_D _ _ _ _ _ _ _ R) as HD. destruct (mr_dict _ _ _ _ _ _ _ R) as [Hd1 Hd2].
    destruct (okey_last k Hk) as [Hk1 Hk2].
    unfold map_find, check_key. destruct k as [|c0 k0]; [congruence|]. set (k := c0 :: k0) in *.
    unfold throw_if at 1. rewrite bind_ret, Hk2. change (negb (0 =? 0)) with false. unfold throw_if. rewrite bind_ret.
    rewrite (mr_ready _ _ _ _ _ _ _ R). cbn [negb orb].
    rewrite (so_size _ _ _ _ _ _ _ _ _ _ HS _ _ _ _ _ Hs).
    destruct (mr_ne _ _ _ _ _ _ _ R) as [[l0 v0] Hl0].
    destruct (so_root _ _ _ _ _ _ _ _ _ _ HS _ _ _ _ _ Hs) as (root & Er & Hroot).
    rewrite (proj2 (N.eqb_neq _ 0)).
    2:{ intros E. assert (size loc = 0%nat) as Ez by lia. apply map_size_empty_inv in Ez.
        rewrite Ez, lookup_empty in Hroot. discriminate. }
    rewrite Er, bind_ret.
    apply wp_loop with (mu := fun '(_, key) => N.of_nat (length key)) (I := fun '(x, key) => exists π l v,
      loc !! enc e (m_codes _ _ m) π = Some x /\ D !! π = Some (l, v) /\ compat key l /\ bytes key /\
      spell D π ++ key = k /\ (length key <= length k)%nat /\ (forall ρ, reach D [] k ρ -> reach D π key ρ)).
    - exists [], l0, v0. split; [exact Hroot|]. split; [exact Hl0|]. split.
      { right. split; [exact Hk|]. apply (dv_root _ _ HD l0 v0 Hl0). }
      split; [exact Hb|]. split; [reflexivity|]. split; [lia|]. auto.
    - exact Hlen.
    - intros [x key] (π & l & v & Hx & Hl & Hcmp & Hbk & Hsp & Hlk & Hreach).
      assert (Hlab : lab !! enc e (m_codes _ _ m) π = Some (l, v)) by apply (mr_lab _ _ _ _ _ _ _ R π _ Hl).
      destruct (so_compare _ _ _ _ _ _ _ _ _ _ HS _ _ _ _ _ _ x key l v Hs Hx Hlab Hcmp) as [Heq Hne].
      assert (Hfound : forall p, key = l -> npt (m_nlm _ _ m) x p -> is_Some (M !! k) /\ mpt m D loc k p).
      { intros p -> Hp. assert (Ek : keyof D π = k). { unfold keyof. rewrite (label_some D π l v Hl). exact Hsp. }
        split; [rewrite <- Ek, (Hd1 π l v Hl); eauto|]. exists π, x. split; [eauto|]. auto. }
      destruct key as [|c' key'].
      + destruct Hcmp as [[_ ->]|[Hc _]]; [|destruct (okey_nil Hc)].
        destruct (Heq eq_refl) as (p & i & E & Hp). rewrite E, bind_ret. apply wp_ret. simpl. auto.
      + set (key := c' :: key') in *. destruct (decide (key = l)) as [El|El].
        * destruct (Heq El) as (p & i & E & Hp). rewrite E, bind_ret. apply wp_ret. auto.
        * rewrite (Hne El), bind_ret.
          destruct (compat_split key l c' key' Hcmp eq_refl El) as (a & c & d & r & l' & Ek & Ell & Hcd & Ha & Hr).
          rewrite <- Ha. rewrite (advance_split a r c key Ek). rewrite (mr_lam _ _ _ _ _ _ _ R).
          assert (Hla : (length a <= length key)%nat) by (rewrite Ek, app_length; lia).
          assert (Hlr : (length r < length key)%nat) by (rewrite Ek, app_length; simpl; lia).
          rewrite (find_steps_ok _ _ _ _ _ _ x _ Hs Hx) by (apply (nat_lt_64 k); [exact Hlen|lia]).
          rewrite bind_ret.
          assert (Hc256 : c < 256). { rewrite Ek in Hbk. apply Forall_app in Hbk as [_ Hbk]. apply Forall_cons_1 in Hbk as [H _]. exact H. }
          assert (Hstuck : ~ is_Some (D !! ((length a, c) :: π)) -> M !! k = None).
          { intros Hn. destruct (M !! k) as [w|] eqn:EM; [|reflexivity]. exfalso.
            destruct (Hd2 k w EM) as (ρ & lr & Hρ & Ekr). pose proof (reach_keyof S D HD ρ lr w Hρ) as Hrr. rewrite Ekr in Hrr.
            apply Hreach in Hrr. rewrite Ek in Hrr. apply Hn.
            apply (reach_some D _ r ρ). eapply reach_next; eassumption. }
          fold (esteps e (length a)).
          destruct (loc !! (replicate (esteps e (length a)) 255 ++ enc e (m_codes _ _ m) π)) as [y|] eqn:Ey.
          2:{ apply wp_ret. apply Hstuck. intros Hc. apply (mrep_loc m S D M b loc lab _ R) in Hc as [z Hz].
              simpl in Hz. destruct (so_pref _ _ _ _ _ _ _ _ _ _ HS _ _ _ _ _ _ _ Hs (mk_is_Some _ _ Hz)) as [y Hy]. congruence. }
          cbn [deref]. rewrite bind_ret. rewrite vget_ok by (rewrite (co_len _ _ _ HC); exact Hc256). rewrite bind_ret.
          rewrite (codes_ok_255 _ _ S c HC Hc256). destruct (bool_decide_reflect (c ∈ S)) as [HcS|HcS]; cbn [negb].
          2:{ apply wp_ret. apply Hstuck. intros Hc. pose proof (dvalid_inS S D _ HD Hc) as [Hin _]%Forall_cons_1.
              apply HcS, Hin. }
          rewrite (make_symb_ok e _ _ S HC dbg (length a) c HcS He), bind_ret.
          rewrite (so_find _ _ _ _ _ _ _ _ _ _ HS _ _ _ _ _ _ y _ Hs Ey (esym_lt e _ _ S HC _ c HcS He)), bind_ret.
          destruct (loc !! (esym e (m_codes _ _ m) (length a) c :: replicate (esteps e (length a)) 255 ++ enc e (m_codes _ _ m) π)) as [z|] eqn:Ez;
            cbn [from_option]; unfold id.
          2:{ rewrite N.eqb_refl. apply wp_ret. apply Hstuck. intros Hc.
              apply (mrep_loc m S D M b loc lab _ R) in Hc as [z Hz]. simpl in Hz. congruence. }
          rewrite (id_not_nil _ _ _ _ _ _ z Hs Ez). apply wp_ret.
          assert (Hch : is_Some (D !! ((length a, c) :: π))).
          { apply (mrep_child m S D M b loc lab π (length a) c R); eauto. }
          destruct Hch as [[lc vc] Hch]. change (advance (c :: r) 1) with r.
          split; [|clear -Hlr; lia].
          exists ((length a, c) :: π), lc, vc. split; [exact Ez|]. split; [exact Hch|].
          split; [apply (compat_child S D π (length a) c lc vc r HD Hch Hr)|].
          split; [rewrite Ek in Hbk; apply Forall_app in Hbk as [_ Hbk]; apply Forall_cons_1 in Hbk as [_ H]; exact H|].
          split.
          { simpl spell. rewrite (label_some D π l v Hl), Ell, take_app. rewrite <- Hsp, Ek, <- !app_assoc. reflexivity. }
          split; [clear -Hlr Hlk; lia|].
          intros ρ Hρ. apply Hreach in Hρ. rewrite Ek in Hρ. eapply reach_next; eassumption.
  Qed.

  (** *** update *)
  Definition with_codes (m : map_st) (t : tT TO) (n : nT NO) (codes : vec N) (num size : N) : map_st :=
    mkMap TO NO (m_ready _ _ m) (m_lambda _ _ m) t n codes num size.

  (** New step nodes. *)
  Lemma mrep_steps m S D M b loc lab π b' loc' t' n' : mrep m S D M b loc lab ->
    srep b' t' n' loc' lab ->
    (forall q, is_Some (loc' !! q) -> is_Some (loc !! q) \/ exists i, fits e D i π /\ q = replicate i 255 ++ enc e (m_codes _ _ m) π) ->
    mrep (with_codes m t' n' (m_codes _ _ m) (m_num_codes _ _ m) (m_size _ _ m)) S D M b' loc' lab.
  Proof.
    intros R Hs Hnew. split; cbn [m_trie m_nlm m_codes m_num_codes m_size m_ready m_lambda with_codes];
      try solve [destruct R; assumption].
    intros p Hq. destruct (Hnew p Hq) as [Hq'|(i & Hi & ->)]; [apply (mr_nodes _ _ _ _ _ _ _ R p Hq')|eauto].
  Qed.
  (** A new byte code. *)
  Lemma mrep_code m S D M b loc lab c : mrep m S D M b loc lab -> c < 256 -> c ∉ S -> m_num_codes _ _ m < 255 ->
    mrep (with_codes m (m_trie _ _ m) (m_nlm _ _ m) (vupd (m_codes _ _ m) c (m_num_codes _ _ m mod 256))
            (m_num_codes _ _ m + 1) (m_size _ _ m)) ({[ c ]} ∪ S) D M b loc lab /\
    (forall {R : Type} (pt : nT NO -> N -> R -> Prop) k p, MapP.mpt TO NO e pt m D loc k p -> MapP.mpt TO NO e pt (with_codes m (m_trie _ _ m) (m_nlm _ _ m)
        (vupd (m_codes _ _ m) c (m_num_codes _ _ m mod 256)) (m_num_codes _ _ m + 1) (m_size _ _ m)) D loc k p).
  Proof.
    intros R Hc HcS Hnum. pose proof (mr_D _ _ _ _ _ _ _ R) as HD.
    assert (Henc : forall π, is_Some (D !! π) ->
      enc e (vupd (m_codes _ _ m) c (m_num_codes _ _ m mod 256)) π = enc e (m_codes _ _ m) π).
    { intros π Hp. apply (enc_ext e _ S).
      - apply (dvalid_inS S D π HD Hp).
      - intros d Hd. apply vnth_upd_ne. congruence. }
    split.
    - split; cbn [m_trie m_nlm m_codes m_num_codes m_size m_ready m_lambda with_codes];
        try solve [destruct R; assumption].
      + apply codes_ok_ext; try assumption. apply R.
      + apply (dvalid_mono S); [set_solver|exact HD].
      + intros π x Hx. rewrite Henc by eauto. apply (mr_lab _ _ _ _ _ _ _ R π x Hx).
      + intros p x Hx. destruct (mr_lab2 _ _ _ _ _ _ _ R p x Hx) as (π & -> & Hp). exists π.
        rewrite Henc by eauto. auto.
      + intros p Hp. destruct (mr_nodes _ _ _ _ _ _ _ R p Hp) as (j & π & -> & Hπ). exists j, π.
        rewrite Henc by apply (fits_some _ _ _ _ Hπ). auto.
    - intros R0 pt k p (π & x & Hp & Hk & Hx & Hpt). exists π, x. cbn [m_codes m_nlm with_codes].
      rewrite Henc by exact Hp. auto.
  Qed.
  Lemma kept_refl m D loc : kept m D loc m D loc.
  Proof. split; auto. Qed.
  Lemma kept_trans m1 D1 l1 m2 D2 l2 m3 D3 l3 : kept m1 D1 l1 m2 D2 l2 -> kept m2 D2 l2 m3 D3 l3 -> kept m1 D1 l1 m3 D3 l3.
  Proof. intros [H1 H2] [H3 H4]. split; [clear -H1 H3; lia|auto]. Qed.
  Lemma mpt_keeps m D loc t' n' loc' num sz : keeps NO stable (m_nlm _ _ m) n' loc loc' ->
    dom loc ⊆ dom loc' -> kept m D loc (with_codes m t' n' (m_codes _ _ m) num sz) D loc'.
  Proof.
    intros Hk Hd. split.
    - rewrite <- !size_dom. apply subseteq_size, Hd.
    - intros k p (π & x & Hp & Ek & Hx & Hpt). destruct (Hk _ x p Hx Hpt) as (x' & Hx' & Hpt').
      exists π, x'. auto.
  Qed.
  (** A new leaf. *)
  Lemma mrep_leaf m S D M b loc lab π l v a d r c k b' loc' t' n' num sz :
    mrep m S D M b loc lab -> c ∈ S -> D !! π = Some (l, v) -> l = a ++ d :: r -> c <> d ->
    D !! ((length a, c) :: π) = None -> ((c = 0 /\ k = []) \/ (c <> 0 /\ okey k)) ->
    dom loc' = {[ enc e (m_codes _ _ m) ((length a, c) :: π) ]} ∪ dom loc ->
    srep b' t' n' loc' (<[enc e (m_codes _ _ m) ((length a, c) :: π) := (k, zeros vs)]> lab) ->
    num = m_num_codes _ _ m -> sz = add64 (m_size _ _ m) 1 ->
    M !! (spell D π ++ a ++ c :: k) = None ->
    mrep (with_codes m t' n' (m_codes _ _ m) num sz) S (<[(length a, c) :: π := (k, zeros vs)]> D)
      (<[spell D π ++ a ++ c :: k := zeros vs]> M) b' loc'
      (<[enc e (m_codes _ _ m) ((length a, c) :: π) := (k, zeros vs)]> lab).
  Proof.
    intros R Hc Hl El Hcd Hnew Hk Hdom Hs -> -> HM. pose proof (mr_D _ _ _ _ _ _ _ R) as HD.
    pose proof (mr_codes _ _ _ _ _ _ _ R) as HC. set (π' := (length a, c) :: π) in *.
    assert (HinS : forall ρ, is_Some (D !! ρ) \/ ρ = π' -> inS S ρ).
    { intros ρ [Hr| ->]; [apply (dvalid_inS S D ρ HD Hr)|]. constructor; [exact Hc|]. apply (dvalid_inS S D π HD). eauto. }
    split; cbn [m_trie m_nlm m_codes m_num_codes m_size with_codes m_ready m_lambda].
    - apply R.
    - apply R.
    - exact Hs.
    - exact HC.
    - apply (dvalid_new S D HD S π l v a d r c k (zeros vs)); auto.
    - apply (dict_new S D M π l v a d r c k (zeros vs)); auto. apply R.
    - rewrite lookup_insert_ne by discriminate. apply R.
    - intros ρ x Hx. destruct (decide (ρ = π')) as [->|Hne].
      + rewrite lookup_insert. rewrite lookup_insert in Hx. exact Hx.
      + rewrite lookup_insert_ne in Hx by congruence. rewrite lookup_insert_ne.
        * apply (mr_lab _ _ _ _ _ _ _ R ρ x Hx).
        * intros E. apply Hne. symmetry. apply (enc_inj e _ _ S HC); [auto| |exact E]. apply HinS. left. eauto.
    - intros p x Hx. destruct (decide (p = enc e (m_codes _ _ m) π')) as [->|Hne].
      + rewrite lookup_insert in Hx. injection Hx as <-. exists π'. rewrite lookup_insert. auto.
      + rewrite lookup_insert_ne in Hx by congruence. destruct (mr_lab2 _ _ _ _ _ _ _ R p x Hx) as (ρ & Ep & Hr).
        exists ρ. split; [exact Ep|]. rewrite lookup_insert_ne by congruence. exact Hr.
    - intros p Hp. apply elem_of_dom in Hp. rewrite Hdom in Hp. apply elem_of_union in Hp as [Hp|Hp].
      + apply elem_of_singleton in Hp as ->. exists O, π'. split; [reflexivity|]. apply fits_0.
        rewrite lookup_insert. eauto.
      + apply elem_of_dom in Hp. destruct (mr_nodes _ _ _ _ _ _ _ R p Hp) as (j & ρ & Ep & Hr). exists j, ρ.
        split; [exact Ep|]. revert Hr. apply fits_ext. intros l1 v1 H1.
        rewrite lookup_insert_ne by congruence. eauto.
    - rewrite (mr_size _ _ _ _ _ _ _ R). rewrite map_size_insert_None by exact HM. unfold add64.
      rewrite !w64_mod, N.add_mod_idemp_l by discriminate. f_equal. lia.
  Qed.

  (** What an update does. *)
  Definition upd_post (m : map_st) (S : gset N) (D : dmap) (M : gmap (list N) (list N)) (b : N) (loc : locmap)
      (k : list N) (r : update_result) (m' : map_st) : Prop :=
    exists S' D' b' loc' lab', b <= b' /\ S ⊆ S' /\ S' ⊆ S ∪ list_to_set k /\
      kept m D loc m' D' loc' /\
      match r with
      | UThrow x => x = ExCodes /\ D' = D /\ M !! k = None /\ mrep m' S' D M b' loc' lab' /\
          size S = 254%nat /\ size S' = 255%nat
      | UPtr None => False
      | UPtr (Some p) =>
          mrep m' S' D' (match M !! k with Some _ => M | None => <[k := zeros vs]> M end) b' loc' lab' /\
          mpt m' D' loc' k p /\ (S' = S \/ (size S' <= 254)%nat) /\ (M !! k = None -> (size loc < size loc')%nat)
      end.

  (** What holds before every iteration of the loop of update. *)
  Definition upd_inv (m : map_st) (S : gset N) (D : dmap) (M : gmap (list N) (list N)) (b : N) (loc : locmap)
      (lab : labmap) (k : list N) (st : map_st * N * list N) : Prop :=
    let '(m1, x, key) := st in exists π l v b1 loc1,
      b <= b1 /\ mrep m1 S D M b1 loc1 lab /\ kept m D loc m1 D loc1 /\
      loc1 !! enc e (m_codes _ _ m1) π = Some x /\ D !! π = Some (l, v) /\ compat key l /\
      (exists pre, k = pre ++ key) /\
      spell D π ++ key = k /\ (forall ρ, reach D [] k ρ -> reach D π key ρ).
  (** The third alternative: in a build with assertions all codes may be taken, if stopping there is allowed. *)
  Lemma update_body_gen m S D M b loc lab k : dvalid S D -> dict_of D M -> bytes k ->
    small vs k -> (B = true -> k <> [0]) ->
    node_bound e (dom M) + 1 < l_max L ->
    ((size S < 255)%nat \/ (forall c, c ∈ k -> c ∈ S) \/ (dbg = true /\ L)) -> forall st, upd_inv m S D M b loc lab k st ->
    wpx L (update_body dbg TO NO st) (fun y => match y with
      | inl s' => upd_inv m S D M b loc lab k s' /\
          (let '(_, _, key0) := s' in N.of_nat (length key0)) < (let '(_, _, key0) := st in N.of_nat (length key0))
      | inr r1 => let '(r, m') := r1 in upd_post m S D M b loc k r m' end).
  Proof.
    intros HD [Hd1 Hd2] Hb Hsm HB Hroom HS255. assert (Hlen : N.of_nat (length k) < 2 ^ 64) by (unfold small in Hsm; lia).
    intros [[m1 x] key] (π & l & v & b1 & loc1 & Hb1 & R1 & Hpt1 & Hx & Hl & Hcmp & [pre Epre] & Hsp & Hreach). unfold update_body.
      pose proof (mr_store _ _ _ _ _ _ _ R1) as Hs. pose proof (mr_codes _ _ _ _ _ _ _ R1) as HC.
      assert (Hlab : lab !! enc e (m_codes _ _ m1) π = Some (l, v)) by apply (mr_lab _ _ _ _ _ _ _ R1 π _ Hl).
      assert (Hlk : (length key <= length k)%nat) by (rewrite Epre, app_length; clear; lia).
      assert (Hbk : bytes key). { rewrite Epre in Hb. apply Forall_app in Hb as [_ H]. exact H. }
      destruct (so_compare _ _ _ _ _ _ _ _ _ _ HS _ _ _ _ _ _ x key l v Hs Hx Hlab Hcmp) as [Heq Hne].
      assert (Hfound : forall p, key = l -> npt (m_nlm _ _ m1) x p -> upd_post m S D M b loc k (UPtr (Some p)) m1).
      { intros p -> Hp. assert (Ek : keyof D π = k). { unfold keyof. rewrite (label_some D π l v Hl). exact Hsp. }
        exists S, D, b1, loc1, lab. split; [exact Hb1|]. split; [set_solver|]. split; [set_solver|].
        split; [exact Hpt1|]. rewrite <- Ek at 1. rewrite (Hd1 π l v Hl).
        split; [exact R1|]. split; [|split; [left; reflexivity|]].
        - exists π, x. split; [eauto|]. auto.
        - intros HM. rewrite <- Ek, (Hd1 π l v Hl) in HM. discriminate. }
      destruct key as [|c' key'].
      + destruct Hcmp as [[_ ->]|[Hc _]]; [|destruct (okey_nil Hc)].
        destruct (Heq eq_refl) as (p & i & E & Hp). rewrite E, bind_ret. apply wpx_ret. simpl. auto.
      + set (key := c' :: key') in *. destruct (decide (key = l)) as [El|El].
        * destruct (Heq El) as (p & i & E & Hp). rewrite E, bind_ret. apply wpx_ret. auto.
        * rewrite (Hne El), bind_ret.
          destruct (compat_split key l c' key' Hcmp eq_refl El) as (a & c & d & r & l' & Ek & Ell & Hcd & Ha & Hr).
          rewrite <- Ha. rewrite (advance_split a r c key Ek). rewrite (mr_lam _ _ _ _ _ _ _ R1).
          assert (Hlen3 : (length key = length a + 1 + length r)%nat) by (rewrite Ek, app_length; simpl; clear; lia).
          assert (Hc256 : c < 256). { rewrite Ek in Hbk. apply Forall_app in Hbk as [_ Hbk]. apply Forall_cons_1 in Hbk as [H _]. exact H. }
          assert (HcK : c ∈ k). { rewrite Epre, Ek. apply elem_of_app. right. apply elem_of_app. right. left. }
          destruct (mrep_slots _ _ _ _ _ _ _ R1) as [HF1 HF2].
          assert (Hfit : forall i, N.of_nat i <= N.of_nat (length a) / 2 ^ e -> fits e D i π).
          { intros i. apply (fits_split e D π l v a d l' i Hl Ell). }
          assert (Hstuck : ~ is_Some (D !! ((length a, c) :: π)) -> M !! k = None).
          { intros Hn. destruct (M !! k) as [w|] eqn:EM; [|reflexivity]. exfalso.
            destruct (Hd2 k w EM) as (ρ & lr & Hρ & Ekr). pose proof (reach_keyof S D HD ρ lr w Hρ) as Hrr. rewrite Ekr in Hrr.
            apply Hreach in Hrr. rewrite Ek in Hrr. apply Hn.
            apply (reach_some D _ r ρ). eapply reach_next; eassumption. }
          apply wpx_bind. eapply wpx_mono.
          { apply (update_steps_ok _ _ _ _ _ _ x (N.of_nat (length a)) (all_slots e (paths m1) D) Hs Hx).
            - apply (nat_lt_64 k); [exact Hlen|clear -Hlen3 Hlk; lia].
            - exact HF1.
            - intros i Hi. apply (all_slots_in e (paths m1) D i π (Hfit i Hi)).
            - clear -Hroom HF2; lia. }
          intros [[[x2 m2] t2] n2] (-> & b2 & loc2 & Hb2 & Hs2 & Hx2 & Hnew2 & Hold2 & Hk2').
          fold (esteps e (length a)) in Hx2.
          pose proof (mrep_steps m1 S D M b1 loc1 lab π b2 loc2 t2 n2 R1 Hs2) as R2.
          specialize (R2 ltac:(intros q Hq; destruct (Hnew2 q Hq) as [H|(i & Hi & H)]; [left; exact H|right; exists i; split; [apply Hfit, Hi|exact H]])).
          set (m2 := with_codes m1 t2 n2 (m_codes _ _ m1) (m_num_codes _ _ m1) (m_size _ _ m1)) in *.
          assert (Hpt2 : kept m D loc m2 D loc2).
          { eapply kept_trans; [exact Hpt1|]. apply (mpt_keeps m1 D loc1 t2 n2 loc2 _ _ Hk2').
            intros q Hq. apply elem_of_dom, Hold2, elem_of_dom, Hq. }
          (* adding the leaf with codes [cd] covering [c] *)
          assert (Hleaf : forall m3 S3 lam3, lam3 = m_lambda _ _ m3 -> mrep m3 S3 D M b2 loc2 lab -> c ∈ S3 -> S ⊆ S3 -> S3 ⊆ {[ c ]} ∪ S ->
             (S3 = S \/ (size S3 <= 254)%nat) ->
             (forall ρ, is_Some (D !! ρ) -> enc e (m_codes _ _ m3) ρ = enc e (m_codes _ _ m1) ρ) ->
             m_trie _ _ m3 = t2 -> m_nlm _ _ m3 = n2 ->
             kept m D loc m3 D loc2 ->
             wpx L (let* symb := make_symb dbg (m_codes _ _ m3) c (N.of_nat (length a) mod 2 ^ e) in
                    let* r0 := add_leaf TO NO x2 symb (advance (c :: r) 1) t2 n2 in
                    let '(p, node_id, t, n) := r0 in
                    match p with
                    | Some p => Ret (inr (UPtr (Some p), mkMap TO NO (m_ready _ _ m3) lam3 t n (m_codes _ _ m3) (m_num_codes _ _ m3) (add64 (m_size _ _ m3) 1)))
                    | None => Ret (inl (mkMap TO NO (m_ready _ _ m3) lam3 t n (m_codes _ _ m3) (m_num_codes _ _ m3) (m_size _ _ m3), node_id, advance (c :: r) 1))
                    end)
               (fun y => match y with
                 | inl s' => upd_inv m S D M b loc lab k s' /\
                     (let '(_, _, key0) := s' in N.of_nat (length key0)) < N.of_nat (length key)
                 | inr r1 => let '(r, m') := r1 in upd_post m S D M b loc k r m' end)).
          { intros m3 S3 lam3 -> R3 HcS HSS HSS2 HS3 Henc Et En Hpt3.
            pose proof (mr_codes _ _ _ _ _ _ _ R3) as HC3.
            rewrite (make_symb_ok e _ _ S3 HC3 dbg (length a) c HcS He), bind_ret. change (advance (c :: r) 1) with r.
            assert (Ep : esym e (m_codes _ _ m3) (length a) c :: replicate (esteps e (length a)) 255 ++ enc e (m_codes _ _ m1) π =
              enc e (m_codes _ _ m3) ((length a, c) :: π)).
            { simpl. rewrite (Henc π) by eauto. reflexivity. }
            apply wpx_bind. eapply wpx_mono.
            { apply (so_leaf _ _ _ _ _ _ _ _ _ _ HS b2 t2 n2 loc2 lab _ x2 (esym e (m_codes _ _ m3) (length a) c) r Hs2 Hx2).
              - apply (esym_lt e _ _ S3 HC3 _ c HcS He).
              - intros HBt E. apply (HB HBt). rewrite Ep in E. destruct π as [|[mm cc] π0].
                + simpl in E. injection E as E1 E2. apply app_nil in E2 as [E2 _].
                  assert (Ec : vnth (m_codes _ _ m3) c = 0). { unfold esym in E1. clear -E1; lia. }
                  destruct (co_0 _ _ _ HC3) as [H0S H0c].
                  assert (c = 0) as ->. { apply (co_inj _ _ _ HC3 c 0); [exact HcS|exact H0S|]. rewrite Ec, H0c. reflexivity. }
                  assert (Em0 : length a = 0%nat).
                  { destruct (esteps e (length a)) as [|j] eqn:Est; [|discriminate].
                    unfold esteps in Est. unfold esym in E1.
                    pose proof (N.div_mod (N.of_nat (length a)) (2 ^ e)) as Hdm. pose proof lam_pos.
                    assert (N.of_nat (length a) mod 2 ^ e = 0) by (clear -E1; lia).
                    assert (N.of_nat (length a) / 2 ^ e = 0) by (clear -Est; lia).
                    rewrite H0, H1 in Hdm. specialize (Hdm ltac:(clear -H; lia)). clear -Hdm; lia. }
                  destruct a; [|discriminate]. destruct Hr as [[_ ->]|[H _]]; [|congruence].
                  simpl in Hsp. rewrite <- Hsp. exact Ek.
                + exfalso. apply (f_equal length) in E. simpl in E. rewrite app_length in E. simpl in E. clear -E; lia.
              - destruct Hr as [[_ ->]|[_ H]]; [left; reflexivity|right; exact H].
              - unfold small in *. clear -Hsm Hlk Hlen3; lia.
              - pose proof (mrep_count _ _ _ _ _ _ _ R3) as Hc3. clear -Hroom Hc3; lia. }
            intros [[[o x4] t4] n4] (b4 & loc4 & Hb4 & Hx4 & Hk4 & Hm4). rewrite Ep in *.
            assert (Hpt4 : dom loc2 ⊆ dom loc4 -> forall sz, kept m D loc (with_codes m3 t4 n4 (m_codes _ _ m3) (m_num_codes _ _ m3) sz) D loc4).
            { intros Hd4 sz. eapply kept_trans; [exact Hpt3|]. apply (mpt_keeps m3 D loc2 t4 n4 loc4 _ _); [rewrite En; exact Hk4|exact Hd4]. }
            destruct (loc2 !! enc e (m_codes _ _ m3) ((length a, c) :: π)) as [y|] eqn:Ey.
            - destruct Hm4 as (-> & Hs4 & Hd4). apply wpx_ret.
              assert (Hch : is_Some (D !! ((length a, c) :: π))).
              { apply (mrep_child m3 S3 D M b2 loc2 lab π (length a) c R3); [eauto|exact HcS|]. simpl in Ey. eauto. }
              assert (HcinS : c ∈ S). { pose proof (dvalid_inS S D _ HD Hch) as [H _]%Forall_cons_1. exact H. }
              assert (S3 = S) as -> by (clear -HcinS HSS HSS2; set_solver).
              pose proof (mrep_steps m3 S D M b2 loc2 lab π b4 loc4 t4 n4 R3 Hs4) as R4.
              split; [|clear -Hlen3; lia].
              destruct Hch as [[lc vc] Hch]. exists ((length a, c) :: π), lc, vc, b4, loc4.
              split; [clear -Hb1 Hb2 Hb4; lia|]. split.
              { apply R4. intros q Hq. left. apply elem_of_dom in Hq. rewrite Hd4 in Hq. apply elem_of_dom, Hq. }
              split; [apply Hpt4; rewrite Hd4; reflexivity|].
              split; [exact Hx4|]. split; [exact Hch|].
              split; [apply (compat_child S D π (length a) c lc vc r HD Hch Hr)|].
              split; [exists (pre ++ a ++ [c]); rewrite Epre, Ek, <- !app_assoc; reflexivity|]. split.
              { simpl spell. rewrite (label_some D π l v Hl), Ell, take_app. rewrite <- Hsp, Ek, <- !app_assoc. reflexivity. }
              intros ρ Hρ. apply Hreach in Hρ. rewrite Ek in Hρ. eapply reach_next; eassumption.
            - destruct Hm4 as (pt & -> & Hpt & Hd4 & Hs4). apply wpx_ret.
              assert (Hch : D !! ((length a, c) :: π) = None).
              { destruct (D !! ((length a, c) :: π)) as [z|] eqn:Ez; [|reflexivity].
                destruct (mrep_loc m3 S3 D M b2 loc2 lab _ R3 (mk_is_Some _ _ Ez)) as [y Hy]. congruence. }
              assert (HM : M !! k = None). { apply Hstuck. intros [z Hz]. congruence. }
              assert (Ekk : spell D π ++ a ++ c :: r = k) by (rewrite <- Ek; exact Hsp).
              exists S3, (<[(length a, c) :: π := (r, zeros vs)]> D), b4, loc4,
                (<[enc e (m_codes _ _ m3) ((length a, c) :: π) := (r, zeros vs)]> lab).
              split; [clear -Hb1 Hb2 Hb4; lia|]. split; [exact HSS|]. split.
              { assert (c ∈ (list_to_set k : gset N)) by (apply elem_of_list_to_set; exact HcK). clear -HSS2 H; set_solver. }
              split.
              { assert (Hd24 : dom loc2 ⊆ dom loc4) by (rewrite Hd4; apply union_subseteq_r).
                destruct (Hpt4 Hd24 (add64 (m_size _ _ m3) 1)) as [Hpz Hpk]. split; [exact Hpz|].
                intros k' p Hp. destruct (Hpk k' p Hp) as (ρ & y & Hρ & Ekρ & Hy & Hyp).
                exists ρ, y. destruct Hρ as [z Hz]. split; [rewrite lookup_insert_ne by congruence; eauto|].
                split; [|auto]. rewrite <- Ekρ. apply (keyof_ext S D HD _ ρ z Hz).
                intros ρ' l1 v1 H1. apply (label_new D _ _ ρ' l1 v1 Hch H1). }
              rewrite HM. split; [|split; [|split; [exact HS3|]]].
              + rewrite <- Ekk at 1.
                apply (mrep_leaf m3 S3 D M b2 loc2 lab π l v a d l' c r b4 loc4 t4 n4 _ _ R3 HcS Hl Ell Hcd Hch Hr Hd4 Hs4 eq_refl eq_refl).
                rewrite Ekk. exact HM.
              + exists ((length a, c) :: π), x4. split; [rewrite lookup_insert; eauto|]. split; [|split; [exact Hx4|exact Hpt]].
                rewrite (keyof_new S D HD π l v a d l' c r (zeros vs) Hl Ell Hch). exact Ekk.
              + intros _. eapply Nat.le_lt_trans; [exact (proj1 Hpt3)|]. rewrite <- !(size_dom (D := gset (list N))), Hd4.
                rewrite size_union by (clear -Ey; intros z Hz1 Hz2; apply elem_of_singleton in Hz1 as ->; apply elem_of_dom in Hz2 as [? ?]; congruence).
                rewrite size_singleton. clear; lia. }
          cbn [deref]. rewrite bind_ret.
          rewrite vget_ok by (rewrite (co_len _ _ _ HC); exact Hc256). rewrite bind_ret.
          rewrite (codes_ok_255 _ _ S c HC Hc256). destruct (bool_decide_reflect (c ∈ S)) as [HcS|HcS]; cbn [negb].
          -- rewrite bind_ret. apply (Hleaf m2 S _ (eq_sym (mr_lam _ _ _ _ _ _ _ R2)) R2 HcS); auto; clear; set_solver.
          -- rewrite vset_ok by (rewrite (co_len _ _ _ HC); exact Hc256). rewrite !bind_ret.
             assert (Hnum : m_num_codes _ _ m1 < 255 \/ (m_num_codes _ _ m1 = 255 /\ dbg = true /\ L)).
             { pose proof (co_max _ _ _ HC) as Hmax. rewrite (co_num _ _ _ HC) in Hmax |- *.
               destruct HS255 as [H|[H|H]]; [left; clear -H; lia|destruct (HcS (H c HcK))|].
               destruct (N.eq_dec (N.of_nat (size S)) 255) as [Heq255|Hne255]; [right; auto|left; clear -Hmax Hne255; lia]. }
             destruct Hnum as [Hnum|(Hnum & Hdbg & HL)].
             2:{ (* all codes are taken: the assertion of make_symb_ *)
                 rewrite Hnum. change (255 mod 256) with 255. change (255 + 1 =? 255) with false. cbv iota beta.
                 unfold make_symb. rewrite vget_ok by (rewrite vlen_upd, (co_len _ _ _ HC); exact Hc256). rewrite bind_ret.
                 rewrite vnth_upd_eq, Hdbg. exact HL. }
             destruct (mrep_code m2 S D M b2 loc2 lab c R2 Hc256 HcS Hnum) as [R3 Hpt3].
             assert (Hsize3 : size ({[ c ]} ∪ S) = Datatypes.S (size S)).
             { rewrite size_union by (clear -HcS; set_solver). rewrite size_singleton. reflexivity. }
             assert (Hnc : m_num_codes _ _ m1 = N.of_nat (size S)) by apply (co_num _ _ _ HC).
             destruct (N.eqb_spec (m_num_codes TO NO m1 + 1) 255) as [E255|E255].
             ++ match goal with |- context [mkMap _ _ ?r (2 ^ e) ?t ?n ?c ?nn ?sz] =>
                  replace (mkMap TO NO r (2 ^ e) t n c nn sz) with (mkMap TO NO r (m_lambda _ _ m1) t n c nn sz)
                    by (rewrite (mr_lam _ _ _ _ _ _ _ R1); reflexivity) end.
                apply wpx_ret. exists ({[ c ]} ∪ S), D, b2, loc2, lab. split; [clear -Hb1 Hb2; lia|].
                split; [clear; set_solver|]. split.
                { assert (c ∈ (list_to_set k : gset N)) by (apply elem_of_list_to_set; exact HcK). clear -H; set_solver. }
                split; [eapply kept_trans; [exact Hpt2|split; [clear; lia|apply Hpt3]]|].
                split; [reflexivity|]. split; [reflexivity|]. split.
                { apply Hstuck. intros Hc. pose proof (dvalid_inS S D _ HD Hc) as [Hin _]%Forall_cons_1. apply HcS, Hin. }
                split; [exact R3|]. rewrite Hsize3. clear -E255 Hnc; lia.
             ++ apply (Hleaf _ ({[ c ]} ∪ S) _ (eq_sym (mr_lam _ _ _ _ _ _ _ R3)) R3).
                ** clear; set_solver.
                ** clear; set_solver.
                ** clear; set_solver.
                ** right. rewrite Hsize3. clear -E255 Hnc Hnum; lia.
                ** intros ρ Hρ. cbn [m_codes with_codes m2]. apply (enc_ext e _ S).
                   { apply (dvalid_inS S D ρ HD Hρ). }
                   intros dd Hdd. apply vnth_upd_ne. congruence.
                ** reflexivity.
                ** reflexivity.
                ** eapply kept_trans; [exact Hpt2|split; [clear; lia|apply Hpt3]].
  Qed.

  Lemma update_body_ok m S D M b loc lab k : dvalid S D -> dict_of D M -> bytes k ->
    small vs k -> (B = true -> k <> [0]) ->
    node_bound e (dom M) + 1 < l_max L ->
    ((size S < 255)%nat \/ forall c, c ∈ k -> c ∈ S) -> forall st, upd_inv m S D M b loc lab k st ->
    wpx L (update_body dbg TO NO st) (fun y => match y with
      | inl s' => upd_inv m S D M b loc lab k s' /\
          (let '(_, _, key0) := s' in N.of_nat (length key0)) < (let '(_, _, key0) := st in N.of_nat (length key0))
      | inr r1 => let '(r, m') := r1 in upd_post m S D M b loc k r m' end).
  Proof.
    intros HD Hd Hb Hsm HB Hroom HS255. apply update_body_gen; try assumption. destruct HS255; auto.
  Qed.

  Theorem map_update_gen m S D M b loc lab k : mrep m S D M b loc lab -> okey k -> bytes k ->
    small vs k -> (B = true -> k <> [0]) ->
    node_bound e (dom M) + 1 < l_max L ->
    ((size S < 255)%nat \/ (forall c, c ∈ k -> c ∈ S) \/ (dbg = true /\ L)) ->
    wpx L (map_update dbg TO NO m k) (fun '(r, m') => upd_post m S D M b loc k r m').
  Proof.
    intros R Hk Hb Hsm HB Hroom HS255. assert (Hlen : N.of_nat (length k) < 2 ^ 64) by (unfold small in Hsm; lia).
    pose proof (mr_D _ _ _ _ _ _ _ R) as HD. destruct (mr_dict _ _ _ _ _ _ _ R) as [Hd1 Hd2].
    pose proof (mr_store _ _ _ _ _ _ _ R) as Hs0.
    destruct (okey_last k Hk) as [Hk1 Hk2].
    unfold map_update, check_key. destruct k as [|c0 k0]; [congruence|]. set (k := c0 :: k0) in *.
    unfold throw_if at 1. rewrite bind_ret, Hk2. change (negb (0 =? 0)) with false. unfold throw_if. rewrite bind_ret.
    rewrite (so_size _ _ _ _ _ _ _ _ _ _ HS _ _ _ _ _ Hs0).
    destruct (mr_ne _ _ _ _ _ _ _ R) as [[l0 v0] Hl0].
    destruct (so_root _ _ _ _ _ _ _ _ _ _ HS _ _ _ _ _ Hs0) as (root & Er & Hroot).
    rewrite (proj2 (N.eqb_neq _ 0)).
    2:{ intros E. assert (size loc = 0%nat) as Ez by (clear -E; lia). apply map_size_empty_inv in Ez.
        rewrite Ez, lookup_empty in Hroot. discriminate. }
    rewrite Er, bind_ret.
    apply wpx_loop with (mu := fun '(_, _, key) => N.of_nat (length key)) (I := upd_inv m S D M b loc lab k).
    - exists [], l0, v0, b, loc. split; [clear; lia|]. split; [exact R|]. split; [apply kept_refl|].
      split; [exact Hroot|]. split; [exact Hl0|]. split.
      { right. split; [exact Hk|]. apply (dv_root _ _ HD l0 v0 Hl0). }
      split; [exists []; reflexivity|]. split; [reflexivity|]. auto.
    - exact Hlen.
    - intros st Hst. eapply wpx_mono.
      { apply (update_body_gen m S D M b loc lab k HD (mr_dict _ _ _ _ _ _ _ R) Hb Hsm HB Hroom HS255 st Hst). }
      intros [[[m1 x] key]|r]; auto.
  Qed.
  Theorem map_update_ok m S D M b loc lab k : mrep m S D M b loc lab -> okey k -> bytes k ->
    small vs k -> (B = true -> k <> [0]) ->
    node_bound e (dom M) + 1 < l_max L ->
    ((size S < 255)%nat \/ forall c, c ∈ k -> c ∈ S) ->
    wpx L (map_update dbg TO NO m k) (fun '(r, m') => upd_post m S D M b loc k r m').
  Proof.
    intros R Hk Hb Hsm HB Hroom HS255. apply (map_update_gen m S D M b loc lab k); try assumption. destruct HS255; auto.
  Qed.
End map_proofs.

(** Every pointer is among what stays true. *)
Definition pts_stable {NO : nlm_ops} {Q : Type} (stable : nT NO -> N -> Q -> Prop) (npt : nT NO -> N -> ptr -> Prop) : Prop :=
  exists emb : ptr -> Q, forall n x p, npt n x p <-> stable n x (emb p).
Lemma kept_mpt TO NO e {Q : Type} (stable : nT NO -> N -> Q -> Prop) npt m D loc m' D' loc' :
  pts_stable stable npt -> kept TO NO e stable m D loc m' D' loc' ->
  forall k p, mpt TO NO e npt m D loc k p -> mpt TO NO e npt m' D' loc' k p.
Proof.
  intros [emb H] [_ Hk] k p (π & x & Hp & Ek & Hx & Hpt).
  destruct (Hk k (emb p)) as (π' & x' & Hp' & Ek' & Hx' & Hpt').
  - exists π, x. split; [exact Hp|]. split; [exact Ek|]. split; [exact Hx|]. apply H, Hpt.
  - exists π', x'. split; [exact Hp'|]. split; [exact Ek'|]. split; [exact Hx'|]. apply H, Hpt'.
Qed.
Lemma tok_stable {NO : nlm_ops} fk (npt : nT NO -> N -> ptr -> Prop) : pts_stable (tok fk (fun _ _ => True) npt) npt.
Proof. exists inr. intros n x p. simpl. tauto. Qed.
