(** The compact Bonsai label store meets its contract. *)
From Verif.Proofs Require Export EntriesP.
From Verif.Proofs Require Import BitToolsP BitTools2P PlainNlmP.
Local Open Scope N_scope.

Notation labs := (gmap N (list N * list N)).

(** Entries stored at the positions [base .. base+n-1]. *)
Definition ocell (o : option (list N * list N)) : list (list N) := match o with Some e => [body e] | None => [] end.
Fixpoint ents (m : labs) (base : N) (n : nat) : list (list N) :=
  match n with O => [] | S n => ents m base n ++ ocell (m !! (base + N.of_nat n)) end.
Definition blk_of (bs : list (list N)) : option (list N) := match bs with [] => None | _ => Some (encs bs) end.

Lemma ents_app m base a b : ents m base (a + b) = ents m base a ++ ents m (base + N.of_nat a) b.
Proof.
  induction b as [|b IH]; [rewrite Nat.add_0_r, app_nil_r; reflexivity|].
  rewrite Nat.add_succ_r. simpl. rewrite IH, <- app_assoc. do 4 f_equal. lia.
Qed.
Lemma ents_ext m m' base n : (forall x, base <= x < base + N.of_nat n -> m !! x = m' !! x) -> ents m base n = ents m' base n.
Proof.
  induction n as [|n IH]; intros H; [reflexivity|]. simpl. rewrite IH by (intros; apply H; lia).
  rewrite H by lia. reflexivity.
Qed.
Lemma ents_split m base j n : (j < n)%nat ->
  ents m base n = ents m base j ++ ocell (m !! (base + N.of_nat j)) ++ ents m (base + N.of_nat j + 1) (n - j - 1).
Proof.
  intros H. replace n with (j + (1 + (n - j - 1)))%nat at 1 by lia. rewrite ents_app. f_equal.
  rewrite ents_app. simpl. rewrite N.add_0_r. reflexivity.
Qed.
Lemma ents_length m base n c : (forall j, j < N.of_nat n -> N.testbit c j = if m !! (base + j) then true else false) ->
  N.of_nat (length (ents m base n)) = ones_below c (N.of_nat n).
Proof.
  induction n as [|n IH]; intros H; [reflexivity|].
  replace (N.of_nat (S n)) with (N.of_nat n + 1) by lia. rewrite ones_below_succ, <- IH by (intros; apply H; lia).
  simpl. rewrite app_length, H by lia. destruct (m !! _); simpl; lia.
Qed.
Lemma ents_none m base n : (forall x, base <= x < base + N.of_nat n -> m !! x = None) -> ents m base n = [].
Proof.
  induction n as [|n IH]; intros H; [reflexivity|]. simpl. rewrite IH by (intros; apply H; lia).
  rewrite H by lia. reflexivity.
Qed.
Lemma ents_forall (Q : list N -> Prop) m base n : (forall x e, m !! x = Some e -> Q (body e)) -> Forall Q (ents m base n).
Proof.
  intros H. induction n as [|n IH]; simpl; [constructor|]. apply Forall_app. split; [exact IH|].
  destruct (m !! _) eqn:E; simpl; [|constructor]. constructor; [eapply H, E|constructor].
Qed.
Lemma ents_len_le m base n : (length (ents m base n) <= n)%nat.
Proof. induction n as [|n IH]; simpl; [lia|]. rewrite app_length. destruct (m !! _); simpl; lia. Qed.

(** Total size of all entries. *)
Definition esz (e : list N * list N) : N := N.of_nat (length (enc (body e))).
Definition tot (m : labs) : N := map_fold (fun _ e a => esz e + a) 0 m.
Lemma tot_empty : tot ∅ = 0.
Proof. apply map_fold_empty. Qed.
Lemma tot_insert m x e : m !! x = None -> tot (<[x := e]> m) = esz e + tot m.
Proof. intros H. unfold tot. rewrite map_fold_insert_L; [reflexivity| |exact H]. intros. lia. Qed.
Lemma tot_update m x e e' : m !! x = Some e -> esz e = esz e' -> tot (<[x := e']> m) = tot m.
Proof.
  intros H E. rewrite <- (insert_delete m x e H) at 2. rewrite <- (insert_delete_insert m x e').
  rewrite !tot_insert by apply lookup_delete. lia.
Qed.
Lemma tot_rename (f : N -> option N) (m m' : labs) :
  (forall x e, m !! x = Some e -> is_Some (f x)) ->
  (forall x y z, is_Some (m !! x) -> is_Some (m !! y) -> f x = Some z -> f y = Some z -> x = y) ->
  (forall y e, m' !! y = Some e <-> exists x, f x = Some y /\ m !! x = Some e) ->
  tot m' = tot m.
Proof.
  revert m'. induction m as [|x0 e0 m Hx0 IH] using map_ind; intros m' Hs Hi Hm.
  - replace m' with (∅ : labs); [reflexivity|]. symmetry. apply map_empty. intros y.
    destruct (m' !! y) as [e|] eqn:E; [|reflexivity]. apply Hm in E as (x & _ & Hx).
    rewrite lookup_empty in Hx. discriminate.
  - destruct (Hs x0 e0) as [y0 Hy0]; [apply lookup_insert|].
    assert (Hin : m' !! y0 = Some e0).
    { apply Hm. exists x0. split; [exact Hy0|apply lookup_insert]. }
    rewrite tot_insert by exact Hx0.
    rewrite <- (insert_delete m' y0 e0 Hin). rewrite tot_insert by apply lookup_delete.
    f_equal. apply IH.
    + intros x e Hx. apply (Hs x e). rewrite lookup_insert_ne; [exact Hx|congruence].
    + intros x y z [ex Hx] [ey Hy]. apply Hi.
      * rewrite lookup_insert_ne by congruence. eauto.
      * rewrite lookup_insert_ne by congruence. eauto.
    + intros y e. rewrite lookup_delete_Some, Hm. split.
      * intros (Hne & x & Hfx & Hx). exists x. split; [exact Hfx|].
        rewrite lookup_insert_ne in Hx; [exact Hx|]. congruence.
      * intros (x & Hfx & Hx). split.
        { intros <-. assert (x = x0).
          { apply (Hi x x0 y0); [|rewrite lookup_insert; eauto|exact Hfx|exact Hy0].
            rewrite lookup_insert_ne by congruence. eauto. }
          congruence. }
        exists x. split; [exact Hfx|]. rewrite lookup_insert_ne; [exact Hx|]. congruence.
Qed.
(** Sizes of the entries at positions below [n]. *)
Definition osz (o : option (list N * list N)) : N := match o with Some e => esz e | None => 0 end.
Lemma sumn_none n (f : N -> N) : (forall i, i < N.of_nat n -> f i = 0) -> sumn f n = 0.
Proof. induction n as [|n IH]; intros H; simpl; [reflexivity|]. rewrite IH, H by (intros; try apply H; lia). reflexivity. Qed.
Lemma sumn_upd n (f g : N -> N) x : x < N.of_nat n -> (forall i, i < N.of_nat n -> i <> x -> f i = g i) ->
  sumn f n + g x = sumn g n + f x.
Proof.
  induction n as [|n IH]; intros Hx H; [lia|]. simpl. destruct (N.eq_dec x (N.of_nat n)) as [->|Hne].
  - rewrite (sumn_ext f g n); [lia|]. intros i Hi. apply H; lia.
  - rewrite (H (N.of_nat n)) by lia. specialize (IH ltac:(lia) ltac:(intros; apply H; lia)). lia.
Qed.
Lemma tot_sum (m : labs) n : (forall x e, m !! x = Some e -> x < N.of_nat n) -> tot m = sumn (fun x => osz (m !! x)) n.
Proof.
  induction m as [|x e m Hx IH] using map_ind; intros H.
  - rewrite tot_empty. symmetry. apply sumn_none. intros i _. rewrite lookup_empty. reflexivity.
  - rewrite tot_insert by exact Hx. rewrite IH.
    2:{ intros y e' Hy. apply (H y e'). rewrite lookup_insert_ne by congruence. exact Hy. }
    pose proof (sumn_upd n (fun y => osz (<[x:=e]> m !! y)) (fun y => osz (m !! y)) x) as E.
    cbv beta in E. rewrite lookup_insert, Hx in E. cbn [osz] in E. rewrite N.add_comm, <- E; [lia| |].
    + apply (H x e), lookup_insert.
    + intros i _ Hi. rewrite lookup_insert_ne by congruence. reflexivity.
Qed.
Lemma encs_cell o : N.of_nat (length (encs (ocell o))) = osz o.
Proof. destruct o as [e|]; [|reflexivity]. cbn [ocell osz]. rewrite encs_one. reflexivity. Qed.
Lemma encs_ents m base n : N.of_nat (length (encs (ents m base n))) = sumn (fun j => osz (m !! (base + j))) n.
Proof.
  induction n as [|n IH]; [reflexivity|]. simpl. rewrite encs_app, app_length, Nat2N.inj_add, IH, encs_cell. reflexivity.
Qed.
Lemma sumn_add f a b : sumn f (a + b) = sumn f a + sumn (fun i => f (N.of_nat a + i)) b.
Proof.
  induction b as [|b IH]; [rewrite Nat.add_0_r; simpl; lia|]. rewrite Nat.add_succ_r. simpl. rewrite IH.
  replace (N.of_nat (a + b)) with (N.of_nat a + N.of_nat b) by lia. lia.
Qed.
Lemma sumn_blocks f c k : sumn f (c * k) = sumn (fun i => sumn (fun j => f (i * N.of_nat k + j)) k) c.
Proof.
  induction c as [|c IH]; [reflexivity|]. simpl. rewrite Nat.add_comm, sumn_add, IH. f_equal.
  apply sumn_ext. intros j _. f_equal. lia.
Qed.

(** ** get_allocs *)
Lemma get_allocs_ok cs c blk j A B : width_ok cs -> c < 2 ^ cs -> j < cs -> N.testbit c j = true ->
  ones_below c cs = N.of_nat (length A + length B) + 1 -> ones_below c j = N.of_nat (length A) ->
  Forall fits A -> Forall fits B -> blk = encs (A ++ B) ->
  get_allocs cs c blk j = Ret (N.of_nat (length (encs A)), N.of_nat (length (encs B))).
Proof.
  intros Hw Hc Hj Hb Hn Ho HA HB ->. assert (cs <= 64) by (destruct Hw as [->|[->|[->| ->]]]; lia).
  unfold get_allocs. rewrite get_bit_ok by assumption. rewrite bind_ret, Hb, assert_true by reflexivity.
  rewrite bind_ret, popcnt_ok by assumption. rewrite bind_ret, popcnt_masked_ok by assumption. rewrite bind_ret, Hn, Ho.
  pose proof (ones_below_le c cs) as Hle.
  replace (sub64 (N.of_nat (length A + length B) + 1) 1) with (N.of_nat (length A + length B)).
  2:{ unfold sub64, UINT64_MAX. rewrite w64_mod.
      replace (_ + _ + _) with (N.of_nat (length A + length B) + 1 * 2 ^ 64) by (change (2 ^ 64) with 18446744073709551616; lia).
      rewrite N.mod_add by discriminate. symmetry. apply N.mod_small. change (2 ^ 64) with 18446744073709551616. lia. }
  match goal with |- (let* st := ?l in _) = _ => enough (E : l = Ret (N.of_nat (length (encs (A ++ B))), N.of_nat (length (encs A)), N.of_nat (length (encs B)))) end.
  { rewrite E. reflexivity. }
  apply wp_eq. apply wp_for_range with (I := fun i st => exists x y, A ++ B = x ++ y /\ N.of_nat (length x) = i /\
    st = (N.of_nat (length (encs x)), N.of_nat (length (encs (firstn (length A) x))), N.of_nat (length (encs (skipn (length A) x))))).
  - lia.
  - change (2 ^ 64) with 18446744073709551616. lia.
  - exists [], (A ++ B). split; [reflexivity|]. split; [reflexivity|]. rewrite firstn_nil, skipn_nil. reflexivity.
  - intros i st Hi (x & y & E & Hx & ->). destruct y as [|b y].
    { rewrite app_nil_r in E. subst x. rewrite app_length in Hx. lia. }
    rewrite E at 1. rewrite encs_app. change (b :: y) with ([b] ++ y). rewrite encs_app, encs_one.
    assert (Hfb : fits b).
    { assert (Forall fits (A ++ B)) as HF by (apply Forall_app; auto). rewrite E in HF.
      apply Forall_app in HF as [_ HF]. inversion HF; assumption. }
    rewrite decode_enc by exact Hfb. rewrite bind_ret. cbn [fst snd].
    assert (Hlen : N.of_nat (length (encs (x ++ [b]))) = N.of_nat (length (encs x)) + (N.of_nat (length b) + N.of_nat (length (vb (N.of_nat (length b)))))).
    { rewrite encs_app, encs_one, app_length. pose proof (enc_length b). lia. }
    destruct (N.ltb_spec i (N.of_nat (length A))) as [Hlt|Hge]; apply wp_ret; exists (x ++ [b]), y;
      (split; [rewrite <- app_assoc; exact E|]); (split; [rewrite app_length; simpl; lia|]); rewrite Hlen; f_equal; try f_equal.
    + rewrite !firstn_all2 by (try rewrite app_length; simpl; lia). rewrite Hlen. reflexivity.
    + rewrite !skipn_all2 by (try rewrite app_length; simpl; lia). reflexivity.
    + rewrite firstn_app. replace (length A - length x)%nat with O by lia. simpl. rewrite app_nil_r. reflexivity.
    + rewrite skipn_app. replace (length A - length x)%nat with O by lia. simpl. rewrite encs_app, encs_one, app_length.
      pose proof (enc_length b). lia.
  - intros st (x & y & E & Hx & ->). assert (y = []) as ->.
    { apply (f_equal (@length _)) in E. rewrite !app_length in E. destruct y; [reflexivity|simpl in E; lia]. }
    rewrite app_nil_r in E. subst x. rewrite firstn_app, skipn_app, firstn_all, skipn_all, Nat.sub_diag. simpl.
    rewrite app_nil_r. reflexivity.
Qed.

Section cbn.
  Context (cs : N) (vs : nat).
  Hypothesis Hcs : width_ok cs.

  Lemma cs_pos : 8 <= cs <= 64.
  Proof. destruct Hcs as [->|[->|[->| ->]]]; lia. Qed.
  Notation K := (N.to_nat cs).
  Lemma pos_split x : x = x / cs * cs + x mod cs /\ x mod cs < cs.
  Proof.
    pose proof cs_pos. split; [|apply N.mod_lt; lia]. rewrite (N.mul_comm (x / cs)). apply N.div_mod. lia.
  Qed.
  Lemma pos_join c j : j < cs -> (c * cs + j) / cs = c /\ (c * cs + j) mod cs = j.
  Proof.
    intros Hj. pose proof cs_pos. split.
    - rewrite N.div_add_l by lia. rewrite N.div_small by exact Hj. lia.
    - rewrite N.add_comm, N.mod_add by lia. apply N.mod_small, Hj.
  Qed.
  Lemma pos_lt x C : x < C * cs <-> x / cs < C.
  Proof.
    pose proof cs_pos. destruct (pos_split x) as [E Hm]. split; intros H0.
    - apply N.div_lt_upper_bound; lia.
    - rewrite E. assert (x / cs * cs + cs <= C * cs); [|lia].
      replace (x / cs * cs + cs) with ((x / cs + 1) * cs) by lia. apply N.mul_le_mono_r. lia.
  Qed.

  (** The chunk words describe the occupied positions. *)
  Definition words (chunks : vec N) (m : labs) : Prop := forall c, c < vlen chunks ->
    vnth chunks c < 2 ^ cs /\ forall j, j < cs -> N.testbit (vnth chunks c) j = if m !! (c * cs + j) then true else false.
  Definition goodm (P : N) (m : labs) : Prop := forall x l v, m !! x = Some (l, v) ->
    x < P /\ length v = vs /\ small vs l.
  Definition chunk (m : labs) (c : N) : list (list N) := ents m (c * cs) K.

  Lemma stored_le l : (length (stored_label l) <= length l)%nat.
  Proof. unfold stored_label. rewrite firstn_length. lia. Qed.
  Lemma body_fits l v : length v = vs -> small vs l -> fits (body (l, v)).
  Proof.
    intros Hv Hs. unfold fits, body. cbn [fst snd]. rewrite app_length. unfold small in Hs.
    pose proof (stored_le l). lia.
  Qed.
  Lemma goodm_fits P m base n : goodm P m -> Forall fits (ents m base n).
  Proof.
    intros H. apply ents_forall. intros x [l v] E. destruct (H x l v E) as (_ & Hv & Hs). apply body_fits; assumption.
  Qed.
  Lemma K_64 n : (n <= K)%nat -> N.of_nat n < 2 ^ 64.
  Proof. pose proof cs_pos. intros Hn. apply N.le_lt_trans with 64; [lia|reflexivity]. Qed.

  (** Splitting a chunk at a position. *)
  Lemma chunk_split m x e : m !! x = Some e ->
    chunk m (x / cs) = ents m (x / cs * cs) (N.to_nat (x mod cs)) ++ [body e] ++ ents m (x + 1) (K - N.to_nat (x mod cs) - 1).
  Proof.
    intros E. destruct (pos_split x) as [Ex Hm]. unfold chunk.
    rewrite (ents_split m _ (N.to_nat (x mod cs)) K) by lia. rewrite N2Nat.id, <- Ex, E. reflexivity.
  Qed.
  Lemma chunk_free m x : m !! x = None ->
    chunk m (x / cs) = ents m (x / cs * cs) (N.to_nat (x mod cs)) ++ ents m (x + 1) (K - N.to_nat (x mod cs) - 1).
  Proof.
    intros E. destruct (pos_split x) as [Ex Hm]. unfold chunk.
    rewrite (ents_split m _ (N.to_nat (x mod cs)) K) by lia. rewrite N2Nat.id, <- Ex, E. reflexivity.
  Qed.
  Lemma ents_insert_out m base n x e : ~ (base <= x < base + N.of_nat n) -> ents (<[x := e]> m) base n = ents m base n.
  Proof. intros H. apply ents_ext. intros y Hy. apply lookup_insert_ne. intros ->. tauto. Qed.
  Lemma chunk_insert m x e :
    chunk (<[x := e]> m) (x / cs) = ents m (x / cs * cs) (N.to_nat (x mod cs)) ++ [body e] ++ ents m (x + 1) (K - N.to_nat (x mod cs) - 1).
  Proof.
    rewrite (chunk_split _ x e) by apply lookup_insert. destruct (pos_split x) as [Ex Hm].
    rewrite !ents_insert_out by lia. reflexivity.
  Qed.
  Lemma chunk_other m x e c : c <> x / cs -> chunk (<[x := e]> m) c = chunk m c.
  Proof.
    intros Hc. pose proof cs_pos. apply ents_insert_out. intros Hx. apply Hc.
    replace x with (c * cs + (x - c * cs)) by lia. symmetry. apply pos_join. lia.
  Qed.

  (** Words after setting the bit of [x]. *)
  Lemma words_insert chunks m x e y : words chunks m -> x / cs < vlen chunks ->
    y < 2 ^ cs -> (forall n, N.testbit y n = if n =? x mod cs then true else N.testbit (vnth chunks (x / cs)) n) ->
    words (vupd chunks (x / cs) y) (<[x := e]> m).
  Proof.
    intros W Hx Hy Hb c Hc. rewrite vlen_upd in Hc. destruct (W c Hc) as [W1 W2].
    destruct (pos_split x) as [Ex Hm].
    rewrite vnth_upd. destruct (N.eqb_spec c (x / cs)) as [->|Hne].
    - split; [exact Hy|]. intros j Hj. rewrite Hb. destruct (N.eqb_spec j (x mod cs)) as [->|Hj'].
      + rewrite <- Ex, lookup_insert. reflexivity.
      + rewrite lookup_insert_ne by (clear -Ex Hj'; lia). apply W2, Hj.
    - split; [exact W1|]. intros j Hj. rewrite lookup_insert_ne; [apply W2, Hj|].
      intros ->. apply Hne. symmetry. apply pos_join, Hj.
  Qed.

  (** The block of the chunk of [x], as seen by [ptrs]. *)
  Definition has_block (ptrs : vec (option N)) (h : heap) (c : N) (bs : list (list N)) : Prop :=
    match vnth ptrs c with
    | None => bs = []
    | Some id => hp_find h id = Some (encs bs) /\ bs <> []
    end.

  Lemma counts chunks m P x : words chunks m -> goodm P m -> x / cs < vlen chunks -> m !! x = None ->
    let c := vnth chunks (x / cs) in let j := x mod cs in
    forall c', (forall n, N.testbit c' n = if n =? j then true else N.testbit c n) ->
    let A := ents m (x / cs * cs) (N.to_nat j) in let B := ents m (x + 1) (K - N.to_nat j - 1) in
    ones_below c' cs = N.of_nat (length A + length B) + 1 /\ ones_below c' j = N.of_nat (length A).
  Proof.
    intros W G Hx E c j c' Hc' A B. destruct (W _ Hx) as [_ Wb]. destruct (pos_split x) as [Ex Hm]. fold j in Hm.
    assert (HA : ones_below c' j = N.of_nat (length A)).
    { unfold A. rewrite (ents_length m _ _ c'); [rewrite N2Nat.id; reflexivity|].
      intros i Hi. rewrite N2Nat.id in Hi. rewrite Hc'. destruct (N.eqb_spec i j); [lia|]. apply Wb. lia. }
    split; [|exact HA].
    pose (m' := <[x := ([], [])]> m).
    assert (HK : N.of_nat (length (chunk m' (x / cs))) = ones_below c' cs).
    { unfold chunk. rewrite (ents_length m' _ _ c'); [rewrite N2Nat.id; reflexivity|].
      intros i Hi. rewrite N2Nat.id in Hi. rewrite Hc'. unfold m'. destruct (N.eqb_spec i j) as [->|Hne].
      - unfold j. rewrite <- Ex, lookup_insert. reflexivity.
      - rewrite lookup_insert_ne by (clear -Ex Hne; fold j in Ex; lia). apply Wb, Hi. }
    rewrite <- HK. unfold m'. rewrite chunk_insert. fold j A B. rewrite !app_length. simpl. lia.
  Qed.

  Lemma fill_exact bytes n : n = N.of_nat (length bytes) -> fill n bytes = Ret bytes.
  Proof.
    intros ->. unfold fill. rewrite N.leb_refl. rewrite Nat2N.id, Nat.sub_diag. simpl. rewrite app_nil_r. reflexivity.
  Qed.
  Lemma slice_front a b : slice (a ++ b) 0 (N.of_nat (length a)) = Ret a.
  Proof. apply (slice_app [] a b); reflexivity. Qed.
  Lemma slice_back a b : slice (a ++ b) (N.of_nat (length a)) (N.of_nat (length b)) = Ret b.
  Proof. rewrite <- (app_nil_r b) at 1. apply (slice_app a b []); reflexivity. Qed.

  Lemma splice_ok ptrs chunks h m P x b c' id : words chunks m -> goodm P m -> x / cs < vlen chunks ->
    vlen ptrs = vlen chunks -> m !! x = None ->
    c' < 2 ^ cs -> (forall n, N.testbit c' n = if n =? x mod cs then true else N.testbit (vnth chunks (x / cs)) n) ->
    hp_find h id = Some (encs (chunk m (x / cs))) ->
    let A := ents m (x / cs * cs) (N.to_nat (x mod cs)) in let B := ents m (x + 1) (K - N.to_nat (x mod cs) - 1) in
    splice cs c' ptrs h (x / cs) (x mod cs) id (N.of_nat (length (enc b))) (enc b) =
    Ret (h_next h, N.of_nat (length (encs A)), vupd ptrs (x / cs) (Some (h_next h)),
         hp_free (hp_push h (encs (A ++ [b] ++ B))) id).
  Proof.
    intros W G Hx Hlen E Hc' Hb Hf A B. destruct (pos_split x) as [Ex Hm].
    destruct (counts chunks m P x W G Hx E c' Hb) as [N1 N2]. fold A B in N1, N2.
    unfold splice, hp_block. rewrite Hf, bind_ret. rewrite (chunk_free m x E). fold A B.
    rewrite (get_allocs_ok cs c' _ (x mod cs) A B); try assumption; try reflexivity.
    2:{ rewrite Hb, N.eqb_refl. reflexivity. }
    2,3: apply (goodm_fits P), G.
    rewrite bind_ret, encs_app, slice_front, bind_ret, slice_back, bind_ret.
    rewrite fill_exact by (rewrite !app_length; lia). rewrite bind_ret, hp_alloc_eq.
    rewrite vset_ok by lia. rewrite bind_ret. rewrite hp_delete_push.
    2:{ intros id' [= <-]. rewrite Hf. eauto. }
    rewrite bind_ret, !encs_app, encs_one. reflexivity.
  Qed.
  Lemma bit_at chunks m x : words chunks m -> x / cs < vlen chunks ->
    get_bit cs (vnth chunks (x / cs)) (x mod cs) = Ret (if m !! x then true else false).
  Proof.
    intros W Hx. destruct (W _ Hx) as [_ Wb]. destruct (pos_split x) as [Ex Hm]. pose proof cs_pos.
    rewrite get_bit_ok by (assumption || lia). rewrite Wb by exact Hm. rewrite <- Ex. reflexivity.
  Qed.
  Lemma set_slice_ok ptrs chunks h m P x b : words chunks m -> goodm P m -> x / cs < vlen chunks ->
    vlen ptrs = vlen chunks -> m !! x = None -> has_block ptrs h (x / cs) (chunk m (x / cs)) ->
    let A := ents m (x / cs * cs) (N.to_nat (x mod cs)) in let B := ents m (x + 1) (K - N.to_nat (x mod cs) - 1) in
    exists c', set_slice cs ptrs chunks h (x / cs) (x mod cs) (enc b) =
      Ret (vupd ptrs (x / cs) (Some (h_next h)), vupd chunks (x / cs) c',
           hp_free_opt (hp_push h (encs (A ++ [b] ++ B))) (vnth ptrs (x / cs))) /\
      c' < 2 ^ cs /\ (forall n, N.testbit c' n = if n =? x mod cs then true else N.testbit (vnth chunks (x / cs)) n).
  Proof.
    intros W G Hx Hlen E Hblk A B. destruct (pos_split x) as [Ex Hm]. pose proof cs_pos.
    destruct (W _ Hx) as [W1 W2].
    destruct (set_bit_ok cs (vnth chunks (x / cs)) (x mod cs) true Hm ltac:(lia) W1) as (c' & Es & Hc' & Hb).
    exists c'. split; [|split; [exact Hc'|exact Hb]].
    unfold set_slice. rewrite vget_ok by exact Hx. rewrite bind_ret, (bit_at chunks m x W Hx), E, bind_ret.
    rewrite assert_true by reflexivity. rewrite bind_ret, Es, bind_ret, vset_ok by exact Hx. rewrite bind_ret.
    rewrite vget_ok by lia. rewrite bind_ret. unfold has_block in Hblk.
    destruct (vnth ptrs (x / cs)) as [id|] eqn:Ep.
    - destruct Hblk as [Hf _]. rewrite (splice_ok ptrs chunks h m P x b c' id W G Hx Hlen E Hc' Hb Hf).
      rewrite bind_ret. reflexivity.
    - rewrite fill_exact by reflexivity. rewrite bind_ret, hp_alloc_eq, vset_ok by lia. rewrite bind_ret.
      rewrite (chunk_free m x E) in Hblk. fold A B in Hblk. apply app_eq_nil in Hblk as [-> ->]. simpl app.
      rewrite encs_one. reflexivity.
  Qed.
  Lemma get_slice_ok chunks h m P x l v id : words chunks m -> goodm P m -> x / cs < vlen chunks ->
    m !! x = Some (l, v) -> hp_find h id = Some (encs (chunk m (x / cs))) ->
    get_slice cs (vnth chunks (x / cs)) (Some id) h (x mod cs) = Ret (enc (body (l, v))).
  Proof.
    intros W G Hx E Hf. destruct (pos_split x) as [Ex Hm]. destruct (W _ Hx) as [W1 W2].
    unfold get_slice. rewrite (bit_at chunks m x W Hx), E, bind_ret. cbn [negb].
    rewrite popcnt_masked_ok by assumption. rewrite bind_ret. unfold hp_block. rewrite Hf, bind_ret.
    rewrite (chunk_split m x _ E). set (A := ents m _ _). set (B := ents m _ _).
    assert (Hc : ones_below (vnth chunks (x / cs)) (x mod cs) = N.of_nat (length A)).
    { unfold A. rewrite (ents_length m _ _ (vnth chunks (x / cs))); [rewrite N2Nat.id; reflexivity|].
      intros i Hi. apply W2. lia. }
    rewrite Hc, !encs_app, encs_one. rewrite skip_ok.
    2:{ apply (goodm_fits P), G. }
    2:{ apply K_64. unfold A. etransitivity; [apply ents_len_le|]. lia. }
    rewrite bind_ret. destruct (G x l v E) as (_ & Hv & Hs).
    rewrite decode_enc by (apply body_fits; assumption). rewrite bind_ret. cbn [fst snd].
    apply slice_app; [reflexivity|]. apply enc_length.
  Qed.

  (** ** The store *)
  Definition look (ptrs : vec (option N)) (c : N) : option N := if c <? vlen ptrs then vnth ptrs c else None.
  Definition blocks (C : N) (m : labs) (c : N) : option (list N) := if c <? C then blk_of (chunk m c) else None.
  Record cbn_rep (P : N) (n : cbn) (m : labs) : Prop := {
    cr_P : P = vlen (cbn_ptrs n) * cs;
    cr_len : vlen (cbn_chunks n) = vlen (cbn_ptrs n);
    cr_words : words (cbn_chunks n) m;
    cr_good : goodm P m;
    cr_owns : owns (look (cbn_ptrs n)) (cbn_heap n) (blocks (vlen (cbn_ptrs n)) m);
    cr_size : cbn_size n = w64 (N.of_nat (size m));
    cr_bytes : cbn_bytes n = w64 (tot m) }.

  Lemma look_in ptrs c : c < vlen ptrs -> look ptrs c = vnth ptrs c.
  Proof. intros H. unfold look. rewrite (proj2 (N.ltb_lt _ _) H). reflexivity. Qed.
  Lemma blocks_in C m c : c < C -> blocks C m c = blk_of (chunk m c).
  Proof. intros H. unfold blocks. rewrite (proj2 (N.ltb_lt _ _) H). reflexivity. Qed.
  Lemma blk_of_some bs : bs <> [] -> blk_of bs = Some (encs bs).
  Proof. destruct bs; [congruence|reflexivity]. Qed.
  Lemma blk_of_none bs : blk_of bs = None -> bs = [].
  Proof. destruct bs; [reflexivity|discriminate]. Qed.

  (** What ownership says about one chunk. *)
  Lemma owns_block {I} (lk : I -> option N) h B i ptrs c bs : owns lk h B -> lk i = vnth ptrs c -> B i = blk_of bs ->
    has_block ptrs h c bs.
  Proof.
    intros R El Eb. unfold has_block. destruct (vnth ptrs c) as [id|].
    - destruct (ow_some _ _ _ R i id El) as (blk & Hf & HB). rewrite Eb in HB.
      destruct bs; [discriminate|]. simpl in HB. injection HB as <-. split; [exact Hf|discriminate].
    - apply blk_of_none. rewrite <- Eb. apply (ow_none _ _ _ R), El.
  Qed.
  Lemma rep_block P n m c : cbn_rep P n m -> c < vlen (cbn_ptrs n) ->
    has_block (cbn_ptrs n) (cbn_heap n) c (chunk m c).
  Proof.
    intros R Hc. apply (owns_block _ _ _ c _ _ _ (cr_owns _ _ _ R)); [apply look_in, Hc|apply blocks_in, Hc].
  Qed.
  Lemma rep_entry P n m x l v : cbn_rep P n m -> m !! x = Some (l, v) ->
    x / cs < vlen (cbn_ptrs n) /\ exists id, vnth (cbn_ptrs n) (x / cs) = Some id /\
      hp_find (cbn_heap n) id = Some (encs (chunk m (x / cs))).
  Proof.
    intros R E. destruct (cr_good _ _ _ R x l v E) as (Hx & _). rewrite (cr_P _ _ _ R) in Hx. apply pos_lt in Hx.
    split; [exact Hx|]. pose proof (rep_block P n m _ R Hx) as Hb. unfold has_block in Hb.
    destruct (vnth (cbn_ptrs n) (x / cs)) as [id|].
    - exists id. split; [reflexivity|apply Hb].
    - rewrite (chunk_split m x _ E) in Hb. destruct (ents m (x / cs * cs) _); discriminate.
  Qed.

  (** Offset of the value of position [x] with label [l]. *)
  Definition voff (m : labs) (x : N) (l : list N) : N :=
    N.of_nat (length (encs (ents m (x / cs * cs) (N.to_nat (x mod cs))))) +
    N.of_nat (length (vb (N.of_nat (length (stored_label l)) + N.of_nat vs))) + N.of_nat (length (stored_label l)).
  Definition cbn_pt (n : cbn) (x : N) (p : ptr) : Prop :=
    let c := vnth (cbn_chunks n) (x / cs) in
    exists id blk off d, x / cs < vlen (cbn_ptrs n) /\ vnth (cbn_ptrs n) (x / cs) = Some id /\
      N.testbit c (x mod cs) = true /\
      hp_find (cbn_heap n) id = Some blk /\ skip_entries blk (ones_below c (x mod cs)) = Ret off /\
      vbyte_decode (skipn (N.to_nat off) blk) = Ret d /\ p = (id, off + snd d + fst d - N.of_nat vs).
  Lemma body_len l v : length v = vs -> N.of_nat (length (body (l, v))) = N.of_nat (length (stored_label l)) + N.of_nat vs.
  Proof. intros H. unfold body. cbn [fst snd]. rewrite app_length. lia. Qed.
  Lemma ones_A P n m x : cbn_rep P n m -> x / cs < vlen (cbn_ptrs n) ->
    ones_below (vnth (cbn_chunks n) (x / cs)) (x mod cs) = N.of_nat (length (ents m (x / cs * cs) (N.to_nat (x mod cs)))).
  Proof.
    intros R Hx. destruct (pos_split x) as [Ex Hm].
    rewrite (ents_length m _ _ (vnth (cbn_chunks n) (x / cs))); [rewrite N2Nat.id; reflexivity|].
    intros i Hi. apply (cr_words _ _ _ R); [rewrite (cr_len _ _ _ R); exact Hx|lia].
  Qed.
  Lemma pt_iff P n m x l v id p : cbn_rep P n m -> m !! x = Some (l, v) -> vnth (cbn_ptrs n) (x / cs) = Some id ->
    cbn_pt n x p <-> p = (id, voff m x l).
  Proof.
    intros R E Hid. destruct (rep_entry P n m x l v R E) as (Hx & id' & Hid' & Hf).
    rewrite Hid in Hid'. injection Hid' as <-. destruct (pos_split x) as [Ex Hm].
    destruct (cr_good _ _ _ R x l v E) as (_ & Hv & Hs).
    assert (Hsk : skip_entries (encs (chunk m (x / cs))) (ones_below (vnth (cbn_chunks n) (x / cs)) (x mod cs)) =
       Ret (N.of_nat (length (encs (ents m (x / cs * cs) (N.to_nat (x mod cs))))))).
    { rewrite (ones_A P n m x R Hx), (chunk_split m x _ E), encs_app. apply skip_ok.
      - apply (goodm_fits P), (cr_good _ _ _ R).
      - apply K_64. etransitivity; [apply ents_len_le|]. lia. }
    assert (Hd : vbyte_decode (skipn (N.to_nat (N.of_nat (length (encs (ents m (x / cs * cs) (N.to_nat (x mod cs)))))))
        (encs (chunk m (x / cs)))) = Ret (N.of_nat (length (body (l, v))), N.of_nat (length (vb (N.of_nat (length (body (l, v)))))))).
    { rewrite (chunk_split m x _ E), !encs_app, encs_one. apply decode_enc, body_fits; assumption. }
    assert (Hbit : N.testbit (vnth (cbn_chunks n) (x / cs)) (x mod cs) = true).
    { destruct (cr_words _ _ _ R (x / cs)) as [_ Wb]; [rewrite (cr_len _ _ _ R); exact Hx|].
      rewrite Wb by exact Hm. rewrite <- Ex, E. reflexivity. }
    unfold cbn_pt, voff. rewrite <- (body_len l v Hv). split.
    - intros (id0 & blk & off & d & _ & Hid0 & _ & Hf0 & Hs0 & Hd0 & ->).
      rewrite Hid in Hid0. injection Hid0 as <-. rewrite Hf in Hf0. injection Hf0 as <-.
      rewrite Hsk in Hs0. injection Hs0 as <-. rewrite Hd in Hd0. injection Hd0 as <-. cbn [fst snd].
      f_equal. rewrite (body_len l v Hv). lia.
    - intros ->. eexists id, _, _, _. split; [exact Hx|]. split; [exact Hid|]. split; [exact Hbit|]. split; [exact Hf|].
      split; [exact Hsk|]. split; [exact Hd|]. cbn [fst snd]. f_equal. rewrite (body_len l v Hv). lia.
  Qed.
  Lemma pt_some P n m x p : cbn_rep P n m -> cbn_pt n x p -> exists l v, m !! x = Some (l, v).
  Proof.
    intros R (id & blk & off & d & Hx & _ & Hb & _). destruct (pos_split x) as [Ex Hm].
    destruct (cr_words _ _ _ R (x / cs)) as [_ Wb]; [rewrite (cr_len _ _ _ R); exact Hx|].
    rewrite Wb, <- Ex in Hb by exact Hm. destruct (m !! x) as [[l v]|]; [eauto|discriminate].
  Qed.

  (** [compare] works on the entry of the position. *)
  Lemma cbn_compare_entry P n m x l v : cbn_rep P n m -> m !! x = Some (l, v) ->
    exists id a rest, Forall fits a /\ N.of_nat (length a) < 2 ^ 64 /\ fits (body (l, v)) /\ length v = vs /\
      x / cs < vlen (cbn_ptrs n) /\ vnth (cbn_ptrs n) (x / cs) = Some id /\
      hp_find (cbn_heap n) id = Some (encs (chunk m (x / cs))) /\
      a = ents m (x / cs * cs) (N.to_nat (x mod cs)) /\
      (forall k, cbn_compare cs vs n x k = entry_compare false vs id (encs a ++ enc (body (l, v)) ++ rest) (N.of_nat (length a)) k).
  Proof.
    intros R E. destruct (rep_entry P n m x l v R E) as (Hx & id & Hid & Hf). destruct (pos_split x) as [Ex Hm].
    destruct (cr_good _ _ _ R x l v E) as (_ & Hv & Hs).
    assert (Hxc : x / cs < vlen (cbn_chunks n)) by (rewrite (cr_len _ _ _ R); exact Hx).
    destruct (cr_words _ _ _ R _ Hxc) as [W1 W2].
    exists id, (ents m (x / cs * cs) (N.to_nat (x mod cs))), (encs (ents m (x + 1) (K - N.to_nat (x mod cs) - 1))).
    split; [apply (goodm_fits P), (cr_good _ _ _ R)|].
    split. { apply K_64. etransitivity; [apply ents_len_le|]. lia. }
    split; [apply body_fits; assumption|]. split; [exact Hv|]. split; [exact Hx|]. split; [exact Hid|]. split; [exact Hf|].
    split; [reflexivity|].
    intros k'. rewrite <- encs_one, <- !encs_app, <- (chunk_split m x _ E).
    unfold cbn_compare, decompose_value. rewrite vget_ok by exact Hx. rewrite bind_ret, Hid.
    rewrite vget_ok by exact Hxc. rewrite bind_ret, (bit_at _ m x (cr_words _ _ _ R) Hxc), E, bind_ret.
    rewrite assert_true by reflexivity. rewrite bind_ret, popcnt_masked_ok by assumption.
    rewrite bind_ret, (ones_A P n m x R Hx). unfold hp_block. rewrite Hf, bind_ret. reflexivity.
  Qed.
  Lemma cbn_compare_ok P n m x k l v : cbn_rep P n m -> m !! x = Some (l, v) ->
    (k = [] /\ l = []) \/ (okey k /\ okey l) -> cmp_spec (cbn_ops cs vs) cbn_pt n x k l.
  Proof.
    intros R E Hk. destruct (cbn_compare_entry P n m x l v R E) as (id & a & rest & Ha & Hla & Hb & Hv & Hx & Hid & Hf & Ea & Hc).
    destruct (entry_compare_ok false vs id a rest k l v Hv Ha Hla Hb Hk) as [H1 H2].
    split; cbn [n_compare cbn_ops].
    - intros Hkl. destruct (H1 Hkl) as [i Hi]. rewrite Hc, Hi. eexists _, i. split; [reflexivity|].
      apply (pt_iff P n m x l v id); try assumption. rewrite Ea. unfold voff. rewrite (body_len l v Hv). reflexivity.
    - intros Hkl. rewrite Hc. apply H2, Hkl.
  Qed.

  Lemma chunk_empty c : chunk ∅ c = [].
  Proof. apply ents_none. intros x _. apply lookup_empty. Qed.
  Lemma pow_cs b : 16 <= b -> 2 ^ b = 2 ^ b / cs * cs.
  Proof.
    intros Hb. destruct Hcs as [->|[->|[->| ->]]].
    - replace b with (b - 3 + 3) by lia. rewrite N.pow_add_r. change (2 ^ 3) with 8. rewrite N.div_mul by discriminate. reflexivity.
    - replace b with (b - 4 + 4) by lia. rewrite N.pow_add_r. change (2 ^ 4) with 16. rewrite N.div_mul by discriminate. reflexivity.
    - replace b with (b - 5 + 5) by lia. rewrite N.pow_add_r. change (2 ^ 5) with 32. rewrite N.div_mul by discriminate. reflexivity.
    - replace b with (b - 6 + 6) by lia. rewrite N.pow_add_r. change (2 ^ 6) with 64. rewrite N.div_mul by discriminate. reflexivity.
  Qed.
  Lemma cbn_new_eq b : 16 <= b <= 56 -> cbn_new cs b = Ret (mkCBN (vnew (2 ^ b / cs) None) (vnew (2 ^ b / cs) 0) 0 0 hp_empty).
  Proof.
    intros Hb. unfold cbn_new. rewrite (proj2 (N.ltb_lt b 64)) by lia. rewrite shl_mul, N.mul_1_l; [reflexivity|].
    rewrite N.mul_1_l. apply pow2_lt. lia.
  Qed.
  Lemma words_new n : words (vnew n 0) ∅.
  Proof.
    intros c _. rewrite vnth_new. split; [apply pow2_pos|]. intros j _. rewrite N.bits_0, lookup_empty. reflexivity.
  Qed.
  Lemma cbn_new_ok b : 16 <= b <= 56 -> exists n, cbn_new cs b = Ret n /\ cbn_rep (2 ^ b) n ∅.
  Proof.
    intros Hb. rewrite cbn_new_eq by exact Hb. eexists. split; [reflexivity|]. split; cbn [cbn_ptrs cbn_chunks cbn_heap cbn_size cbn_bytes].
    - rewrite vlen_new. apply pow_cs. lia.
    - reflexivity.
    - apply words_new.
    - intros x l v E. rewrite lookup_empty in E. discriminate.
    - split.
      + intros c id E. unfold look in E. rewrite vnth_new in E. destruct (c <? _); discriminate.
      + intros c _. unfold blocks. rewrite chunk_empty. destruct (c <? _); reflexivity.
      + intros i j id E. unfold look in E. rewrite vnth_new in E. destruct (i <? _); discriminate.
      + intros id blk E. rewrite hp_find_empty in E. discriminate.
      + apply hp_ok_empty.
    - reflexivity.
    - reflexivity.
  Qed.

  Lemma w64_small a : a < 2 ^ 64 -> w64 a = a.
  Proof. rewrite w64_mod. apply N.mod_small. Qed.
  Lemma blocks_insert C m x e : x / cs < C ->
    let A := ents m (x / cs * cs) (N.to_nat (x mod cs)) in let B := ents m (x + 1) (K - N.to_nat (x mod cs) - 1) in
    blocks C (<[x := e]> m) (x / cs) = Some (encs (A ++ [body e] ++ B)) /\
    (forall c, c <> x / cs -> blocks C (<[x := e]> m) c = blocks C m c).
  Proof.
    intros Hx A B. split.
    - rewrite blocks_in by exact Hx. rewrite chunk_insert. fold A B. apply blk_of_some. destruct A; discriminate.
    - intros c Hc. unfold blocks. rewrite chunk_other by exact Hc. reflexivity.
  Qed.
  Lemma look_upd ptrs c o : c < vlen ptrs -> look (vupd ptrs c o) c = o /\
    (forall c', c' <> c -> look (vupd ptrs c o) c' = look ptrs c').
  Proof.
    intros Hc. unfold look. rewrite vlen_upd. split.
    - rewrite (proj2 (N.ltb_lt _ _) Hc). apply vnth_upd_eq.
    - intros c' Hne. rewrite vnth_upd_ne by exact Hne. reflexivity.
  Qed.
  Lemma goodm_insert P m x l v : goodm P m -> x < P -> length v = vs -> small vs l ->
    goodm P (<[x := (l, v)]> m).
  Proof.
    intros G Hx Hv Hs y l' v' E. destruct (decide (y = x)) as [->|Hne].
    - rewrite lookup_insert in E. injection E as <- <-. auto.
    - rewrite lookup_insert_ne in E by congruence. apply (G _ _ _ E).
  Qed.

  Lemma cbn_insert_ok P n m x k : cbn_rep P n m -> x < P -> m !! x = None -> small vs k ->
    exists p n', cbn_insert cs vs n x k = Ret (p, n') /\ cbn_rep P n' (<[x := (k, zeros vs)]> m) /\ cbn_pt n' x p.
  Proof.
    intros R HxP E Hsm. pose proof HxP as Hx. rewrite (cr_P _ _ _ R) in Hx. apply pos_lt in Hx.
    destruct (pos_split x) as [Ex Hm]. pose proof cs_pos as Hcp.
    assert (Hxc : x / cs < vlen (cbn_chunks n)) by (rewrite (cr_len _ _ _ R); exact Hx).
    pose proof (cr_words _ _ _ R) as W. destruct (W _ Hxc) as [W1 W2].
    destruct (set_bit_ok cs (vnth (cbn_chunks n) (x / cs)) (x mod cs) true Hm ltac:(lia) W1) as (c' & Es & Hc' & Hb).
    assert (Hz : length (zeros vs) = vs) by (unfold zeros; apply repeat_length).
    pose proof (stored_le k) as Hst.
    assert (Hsum : add64 (N.of_nat (length (stored_label k))) (N.of_nat vs) = N.of_nat (length (body (k, zeros vs)))).
    { unfold add64. rewrite (body_len k (zeros vs) Hz). apply w64_small. unfold small in Hsm. lia. }
    assert (Hfit : N.of_nat (length (body (k, zeros vs))) < 2 ^ 64) by (apply body_fits; assumption).
    assert (Henc : vb (N.of_nat (length (body (k, zeros vs)))) ++ stored_label k ++ zeros vs = enc (body (k, zeros vs))) by reflexivity.
    set (b := body (k, zeros vs)) in *.
    assert (Halloc : N.of_nat (length (vb (N.of_nat (length b)))) + N.of_nat (length (stored_label k)) + N.of_nat vs = N.of_nat (length (enc b))).
    { rewrite enc_length. unfold b. rewrite (body_len k (zeros vs) Hz). lia. }
    set (A := ents m (x / cs * cs) (N.to_nat (x mod cs))).
    set (B := ents m (x + 1) (K - N.to_nat (x mod cs) - 1)).
    assert (Hins : cbn_insert cs vs n x k =
      Ret ((h_next (cbn_heap n), N.of_nat (length (encs A)) + (N.of_nat (length (vb (N.of_nat (length b)))) + N.of_nat (length (stored_label k)))),
           mkCBN (vupd (cbn_ptrs n) (x / cs) (Some (h_next (cbn_heap n)))) (vupd (cbn_chunks n) (x / cs) c')
             (add64 (cbn_size n) 1) (add64 (cbn_bytes n) (N.of_nat (length (enc b))))
             (hp_free_opt (hp_push (cbn_heap n) (encs (A ++ [b] ++ B))) (vnth (cbn_ptrs n) (x / cs))))).
    { unfold cbn_insert, decompose_value. rewrite vget_ok by exact Hxc. rewrite bind_ret, (bit_at _ m x W Hxc), E, bind_ret.
      rewrite assert_true by reflexivity. rewrite bind_ret, Es, bind_ret, vset_ok by exact Hxc. rewrite bind_ret.
      rewrite Hsum, vbyte_size_ok by exact Hfit. rewrite bind_ret, vbyte_encode_ok by exact Hfit. rewrite bind_ret.
      rewrite Henc, Halloc. rewrite vget_ok by exact Hx. rewrite bind_ret.
      pose proof (rep_block P n m _ R Hx) as Hblk. unfold has_block in Hblk.
      destruct (vnth (cbn_ptrs n) (x / cs)) as [id|] eqn:Ep.
      - destruct Hblk as [Hf _].
        rewrite (splice_ok (cbn_ptrs n) (cbn_chunks n) (cbn_heap n) m P x b c' id W (cr_good _ _ _ R) Hxc
          (eq_sym (cr_len _ _ _ R)) E Hc' Hb Hf). rewrite bind_ret. reflexivity.
      - rewrite fill_exact by reflexivity. rewrite bind_ret, hp_alloc_eq, vset_ok by exact Hx. rewrite bind_ret.
        rewrite (chunk_free m x E) in Hblk. fold A B in Hblk. apply app_eq_nil in Hblk as [-> ->]. simpl app.
        rewrite encs_one. reflexivity. }
    rewrite Hins. eexists _, _. split; [reflexivity|].
    match goal with |- cbn_rep P ?n0 ?m0 /\ _ => set (n' := n0); set (m' := m0) end.
    assert (R' : cbn_rep P n' m').
    { split; unfold n'; cbn [cbn_ptrs cbn_chunks cbn_heap cbn_size cbn_bytes].
      - rewrite vlen_upd. apply (cr_P _ _ _ R).
      - rewrite !vlen_upd. apply (cr_len _ _ _ R).
      - apply words_insert; assumption.
      - apply goodm_insert; try assumption. apply (cr_good _ _ _ R).
      - rewrite vlen_upd. rewrite <- (look_in (cbn_ptrs n) (x / cs) Hx).
        destruct (blocks_insert (vlen (cbn_ptrs n)) m x (k, zeros vs) Hx) as [B1 B2]. fold A B b in B1.
        destruct (look_upd (cbn_ptrs n) (x / cs) (Some (h_next (cbn_heap n))) Hx) as [L1 L2].
        apply (owns_replace (look (cbn_ptrs n)) _ _ (blocks (vlen (cbn_ptrs n)) m) _ (x / cs) _ (cr_owns _ _ _ R)).
        + intros j Hj. split; [apply L2, Hj|apply B2, Hj].
        + exact L1.
        + exact B1.
        + intros j. apply N.eq_dec.
      - unfold m'. rewrite (cr_size _ _ _ R). unfold add64. rewrite w64_add_l. rewrite map_size_insert_None by exact E.
        f_equal. lia.
      - unfold m'. rewrite (cr_bytes _ _ _ R). unfold add64. rewrite w64_add_l, tot_insert by exact E. f_equal.
        unfold esz. fold b. lia. }
    split; [exact R'|]. apply (pt_iff P n' m' x k (zeros vs) (h_next (cbn_heap n)) _ R').
    - apply lookup_insert.
    - unfold n'; cbn [cbn_ptrs]. apply vnth_upd_eq.
    - unfold voff, m'. rewrite ents_insert_out by lia. fold A. unfold b. rewrite (body_len k (zeros vs) Hz).
      f_equal. lia.
  Qed.

  (** Reading and writing values. *)
  Lemma chunk_shape m x l v : m !! x = Some (l, v) -> length v = vs ->
    exists rest, encs (chunk m (x / cs)) =
      (encs (ents m (x / cs * cs) (N.to_nat (x mod cs))) ++ vb (N.of_nat (length (stored_label l)) + N.of_nat vs) ++ stored_label l) ++ v ++ rest /\
      (forall w, length w = vs -> encs (chunk (<[x := (l, w)]> m) (x / cs)) =
      (encs (ents m (x / cs * cs) (N.to_nat (x mod cs))) ++ vb (N.of_nat (length (stored_label l)) + N.of_nat vs) ++ stored_label l) ++ w ++ rest).
  Proof.
    intros E Hv. exists (encs (ents m (x + 1) (K - N.to_nat (x mod cs) - 1))).
    assert (Hb : forall w, length w = vs -> enc (body (l, w)) =
      (vb (N.of_nat (length (stored_label l)) + N.of_nat vs) ++ stored_label l) ++ w).
    { intros w Hw. unfold enc. rewrite (body_len l w Hw). unfold body. cbn [fst snd]. apply app_assoc. }
    split.
    - rewrite (chunk_split m x _ E), !encs_app, encs_one, Hb by exact Hv. rewrite <- !app_assoc. reflexivity.
    - intros w Hw. rewrite chunk_insert, !encs_app, encs_one, Hb by exact Hw. rewrite <- !app_assoc. reflexivity.
  Qed.
  Lemma voff_len m x l : voff m x l =
    N.of_nat (length (encs (ents m (x / cs * cs) (N.to_nat (x mod cs))) ++ vb (N.of_nat (length (stored_label l)) + N.of_nat vs) ++ stored_label l)).
  Proof. unfold voff. rewrite !app_length. lia. Qed.
  Lemma cbn_read_ok P n m x p : cbn_rep P n m -> cbn_pt n x p ->
    exists l v, m !! x = Some (l, v) /\ hp_read (cbn_heap n) p vs = Ret v.
  Proof.
    intros R Hp. destruct (pt_some P n m x p R Hp) as (l & v & E). exists l, v. split; [exact E|].
    destruct (rep_entry P n m x l v R E) as (Hx & id & Hid & Hf). destruct (cr_good _ _ _ R x l v E) as (_ & Hv & _).
    apply (pt_iff P n m x l v id p R E Hid) in Hp as ->. destruct (chunk_shape m x l v E Hv) as (rest & Es & _).
    rewrite voff_len. eapply read_app; [rewrite <- Es; exact Hf|exact Hv].
  Qed.
  Lemma ents_lens m x l v w base n : m !! x = Some (l, v) -> length v = length w ->
    length (encs (ents (<[x := (l, w)]> m) base n)) = length (encs (ents m base n)).
  Proof.
    intros E Hw. apply Nat2N.inj. rewrite !encs_ents. apply sumn_ext. intros j _.
    destruct (decide (base + j = x)) as [->|Hne].
    - rewrite lookup_insert, E. cbn [osz]. unfold esz. rewrite !enc_length. unfold body. cbn [fst snd]. rewrite !app_length, Hw. reflexivity.
    - rewrite lookup_insert_ne by congruence. reflexivity.
  Qed.
  Lemma cbn_write_ok P n m x p l v w : cbn_rep P n m -> cbn_pt n x p -> m !! x = Some (l, v) -> length w = vs ->
    exists h, hp_write (cbn_heap n) p w = Ret h /\
      let n' := mkCBN (cbn_ptrs n) (cbn_chunks n) (cbn_size n) (cbn_bytes n) h in
      cbn_rep P n' (<[x := (l, w)]> m) /\ (forall y q, cbn_pt n y q -> cbn_pt n' y q).
  Proof.
    intros R Hp E Hw. destruct (rep_entry P n m x l v R E) as (Hx & id & Hid & Hf).
    destruct (cr_good _ _ _ R x l v E) as (HxP & Hv & Hs).
    apply (pt_iff P n m x l v id p R E Hid) in Hp as ->. destruct (chunk_shape m x l v E Hv) as (rest & Es & Ew).
    rewrite voff_len. rewrite Es in Hf. rewrite (write_app _ _ _ _ _ w Hf) by congruence.
    eexists. split; [reflexivity|]. rewrite <- (Ew w Hw). set (h' := mkHeap _ _).
    cbv zeta. set (n' := mkCBN _ _ _ _ h').
    assert (R' : cbn_rep P n' (<[x := (l, w)]> m)).
    { split; unfold n'; cbn [cbn_ptrs cbn_chunks cbn_heap cbn_size cbn_bytes].
      - apply (cr_P _ _ _ R).
      - apply (cr_len _ _ _ R).
      - intros c Hc. destruct (cr_words _ _ _ R c Hc) as [W1 W2]. split; [exact W1|]. intros j Hj. rewrite W2 by exact Hj.
        destruct (decide (c * cs + j = x)) as [->|Hne]; [rewrite lookup_insert, E; reflexivity|].
        rewrite lookup_insert_ne by congruence. reflexivity.
      - apply goodm_insert; try assumption. apply (cr_good _ _ _ R).
      - destruct (blocks_insert (vlen (cbn_ptrs n)) m x (l, w) Hx) as [B1 B2].
        apply (owns_write (look (cbn_ptrs n)) (cbn_heap n) (blocks (vlen (cbn_ptrs n)) m) _ (x / cs) id _ (cr_owns _ _ _ R)).
        + rewrite look_in by exact Hx. exact Hid.
        + intros j Hj. apply B2, Hj.
        + rewrite chunk_insert. exact B1.
        + intros j. apply N.eq_dec.
      - rewrite map_size_insert_Some by eauto. apply (cr_size _ _ _ R).
      - rewrite (tot_update m x (l, v) (l, w) E); [apply (cr_bytes _ _ _ R)|].
        unfold esz. rewrite !enc_length. unfold body. cbn [fst snd]. rewrite !app_length, Hw, Hv. reflexivity. }
    split; [exact R'|]. intros y q Hq. destruct (pt_some P n m y q R Hq) as (l1 & v1 & E1).
    destruct (rep_entry P n m y l1 v1 R E1) as (Hy & id1 & Hid1 & _).
    apply (pt_iff P n m y l1 v1 id1 q R E1 Hid1) in Hq as ->.
    assert (exists v2, <[x := (l, w)]> m !! y = Some (l1, v2)) as (v2 & E2).
    { destruct (decide (x = y)) as [->|Hne].
      - rewrite lookup_insert. exists w. congruence.
      - rewrite lookup_insert_ne by congruence. eauto. }
    apply (pt_iff P n' _ y l1 v2 id1 _ R' E2); [exact Hid1|].
    unfold voff. rewrite (ents_lens m x l v w) by congruence. reflexivity.
  Qed.

  (** ** Expansion *)
  Lemma ceil_log2_pow b : 1 <= b < 64 -> ceil_log2 (2 ^ b) = Ret b.
  Proof.
    intros Hb. destruct (ceil_log2_ok (2 ^ b)) as (n & E & Hn & Hmin).
    - pose proof (pow2_pos b). lia.
    - apply pow2_lt. lia.
    - rewrite E. f_equal. assert (b <= n) by (apply (N.pow_le_mono_r_iff 2); [lia|exact Hn]).
      specialize (Hmin b). lia.
  Qed.
  Definition look2 (ptrs nptrs : vec (option N)) (i : N + N) : option N :=
    match i with inl c => look ptrs c | inr c => look nptrs c end.
  Definition blocks2 (q C : N) (m mk : labs) (i : N + N) : option (list N) :=
    match i with inl c => if c <? q then None else blocks C m c | inr c => blocks (2 * C) mk c end.
  Lemma sum_dec (i j : N + N) : {i = j} + {i <> j}.
  Proof. decide equality; apply N.eq_dec. Qed.

  Record xinv (n : cbn) (m : labs) (f : N -> option N) (C pos : N)
      (st : vec (option N) * vec (option N) * vec N * heap) (mk : labs) : Prop := {
    xi_plen : vlen (fst (fst (fst st))) = C;
    xi_ptrs : forall c, c < C -> vnth (fst (fst (fst st))) c = if c <? pos / cs then None else vnth (cbn_ptrs n) c;
    xi_nlen : vlen (snd (fst (fst st))) = 2 * C;
    xi_clen : vlen (snd (fst st)) = 2 * C;
    xi_words : words (snd (fst st)) mk;
    xi_good : goodm (2 * C * cs) mk;
    xi_mk : forall y e, mk !! y = Some e <-> exists x, x < pos /\ f x = Some y /\ m !! x = Some e;
    xi_owns : owns (look2 (fst (fst (fst st))) (snd (fst (fst st)))) (snd st) (blocks2 (pos / cs) C m mk) }.

  Lemma div_step pos : (pos + 1) / cs = if pos mod cs =? cs - 1 then pos / cs + 1 else pos / cs.
  Proof.
    destruct (pos_split pos) as [E Hm]. pose proof cs_pos.
    destruct (N.eqb_spec (pos mod cs) (cs - 1)) as [H1|H1].
    - replace (pos + 1) with ((pos / cs + 1) * cs + 0) by lia. apply pos_join. lia.
    - replace (pos + 1) with (pos / cs * cs + (pos mod cs + 1)) by lia. apply pos_join. lia.
  Qed.

  Lemma cbn_expand_ok P n m nm (f : N -> option N) m' : cbn_rep P n m -> nm_size nm = P ->
    (exists b, 16 <= b <= 55 /\ P = 2 ^ b) ->
    (forall i, i < P -> nm_get nm i = Ret (default UINT64_MAX (f i))) ->
    (forall i j y, i < P -> j < P -> f i = Some y -> f j = Some y -> i = j) ->
    (forall i y, i < P -> f i = Some y -> y < 2 * P) ->
    (forall x e, m !! x = Some e -> x < P /\ is_Some (f x)) ->
    (forall y e, m' !! y = Some e <-> exists x, f x = Some y /\ m !! x = Some e) ->
    exists n', cbn_expand cs n nm = Ret n' /\ cbn_rep (2 * P) n' m'.
  Proof.
    intros R Hnm (b & Hb & EP) Hget Hinj Hrange Hdom Hm'. pose proof cs_pos as Hcp.
    set (C := vlen (cbn_ptrs n)). assert (HPC : P = C * cs) by apply (cr_P _ _ _ R).
    assert (HP56 : 2 * P <= 2 ^ 56). { rewrite EP, <- pow2_succ. apply pow2_le. lia. }
    assert (HP64 : 2 * P < 2 ^ 64). { apply N.le_lt_trans with (2 ^ 56); [exact HP56|reflexivity]. }
    assert (HC2 : 2 * C * cs = 2 * P) by lia.
    unfold cbn_expand. fold C.
    replace (mul64 (mul64 C cs) 2) with (2 ^ (b + 1)).
    2:{ unfold mul64. rewrite <- HPC. rewrite !w64_small by (try rewrite w64_small; lia). rewrite pow2_succ. lia. }
    rewrite ceil_log2_pow by lia. rewrite bind_ret, cbn_new_eq by lia. rewrite bind_ret. cbn [cbn_ptrs cbn_chunks].
    assert (HnC : 2 ^ (b + 1) / cs = 2 * C).
    { rewrite pow2_succ, <- EP, <- HC2. apply N.div_mul. lia. }
    rewrite HnC, Hnm.
    match goal with |- exists n', (let* st := ?l in _) = _ /\ _ =>
      assert (Hloop : wp l (fun st => exists mk, xinv n m f C P st mk)) end.
    { apply wp_for_range with (I := fun pos st => exists mk, xinv n m f C pos st mk); [lia|lia| | |auto].
      - exists ∅. split; cbn [fst snd].
        + reflexivity.
        + intros c Hc. rewrite N.div_0_l by lia. destruct (N.ltb_spec c 0); [lia|reflexivity].
        + apply vlen_new.
        + apply vlen_new.
        + apply words_new.
        + intros x l v E. rewrite lookup_empty in E. discriminate.
        + intros y e. rewrite lookup_empty. split; [discriminate|]. intros (x & Hx & _). lia.
        + rewrite N.div_0_l by lia. pose proof (cr_owns _ _ _ R) as Ro.
          assert (Hl2 : forall c, look (vnew (2 * C) None) c = None).
          { intros c. unfold look. rewrite vnth_new. destruct (c <? _); reflexivity. }
          split.
          * intros [c|c] id E; cbn [look2 blocks2] in *; [|rewrite Hl2 in E; discriminate].
            destruct (N.ltb_spec c 0); [lia|]. apply (ow_some _ _ _ Ro c id E).
          * intros [c|c] E; cbn [look2 blocks2] in *.
            { destruct (N.ltb_spec c 0); [lia|]. apply (ow_none _ _ _ Ro c E). }
            unfold blocks. rewrite chunk_empty. destruct (c <? _); reflexivity.
          * intros [i|i] [j|j] id E1 E2; cbn [look2] in *; try (rewrite Hl2 in *; discriminate).
            f_equal. apply (ow_inj _ _ _ Ro i j id E1 E2).
          * intros id blk E. destruct (ow_own _ _ _ Ro id blk E) as [c Hc]. exists (inl c). exact Hc.
          * apply (ow_ok _ _ _ Ro).
      - intros pos [[[ptrs nptrs] nchunks] h] Hpos (mk & X). destruct X as [X1 X2 X3 X4 X5 X6 X7 X8]. cbn [fst snd] in *.
        destruct (pos_split pos) as [Ex Hm]. pose proof Hpos as [_ HposP]. rewrite HPC in HposP. apply pos_lt in HposP.
        unfold decompose_value. rewrite Hget by lia. rewrite bind_ret.
        (* the first half: moving the entry *)
        match goal with |- wp (let* st := ?mid in _) _ =>
          assert (Hmid : exists mk' nptrs' nchunks' h', mid = Ret (nptrs', nchunks', h') /\
            vlen nptrs' = 2 * C /\ vlen nchunks' = 2 * C /\ words nchunks' mk' /\ goodm (2 * C * cs) mk' /\
            (forall y e, mk' !! y = Some e <-> exists x, x < pos + 1 /\ f x = Some y /\ m !! x = Some e) /\
            owns (look2 ptrs nptrs') h' (blocks2 (pos / cs) C m mk')) end.
        { assert (Hskip : (forall y e, ~ (f pos = Some y /\ m !! pos = Some e)) -> exists mk' nptrs' nchunks' h', Ret (nptrs, nchunks, h) = Ret (nptrs', nchunks', h') /\
            vlen nptrs' = 2 * C /\ vlen nchunks' = 2 * C /\ words nchunks' mk' /\ goodm (2 * C * cs) mk' /\
            (forall y e, mk' !! y = Some e <-> exists x, x < pos + 1 /\ f x = Some y /\ m !! x = Some e) /\
            owns (look2 ptrs nptrs') h' (blocks2 (pos / cs) C m mk')).
          { intros Hno. exists mk, nptrs, nchunks, h. repeat (split; [first [reflexivity|assumption]|]). split; [|assumption].
            intros y e. rewrite X7. split; intros (x & Hx & H1 & H2); exists x; (split; [|auto]); [lia|].
            destruct (N.eq_dec x pos) as [->|]; [|lia]. destruct (Hno y e). auto. }
          destruct (f pos) as [y|] eqn:Ef; cbn [default from_option].
          2:{ rewrite N.eqb_refl. apply Hskip. intros y e [H1 _]. congruence. }
          unfold id. pose proof (Hrange pos y ltac:(lia) Ef) as Hy.
          assert (Hyne : (y =? UINT64_MAX) = false).
          { apply N.eqb_neq. unfold UINT64_MAX. change (2 ^ 64) with 18446744073709551616 in HP64. lia. }
          rewrite Hyne. cbn [negb]. rewrite vget_ok by (rewrite (cr_len _ _ _ R); exact HposP). rewrite bind_ret.
          rewrite vget_ok by lia. rewrite bind_ret. rewrite X2 by exact HposP.
          rewrite (proj2 (N.ltb_ge (pos / cs) (pos / cs))) by lia.
          destruct (m !! pos) as [[l v]|] eqn:Em.
          2:{ unfold get_slice. rewrite (bit_at _ m pos (cr_words _ _ _ R)) by (rewrite (cr_len _ _ _ R); exact HposP).
              rewrite Em, bind_ret. cbn [negb]. rewrite bind_ret. apply Hskip. intros y' e [_ H2]. congruence. }
          assert (Hblk : has_block (cbn_ptrs n) h (pos / cs) (chunk m (pos / cs))).
          { apply (owns_block _ _ _ (inl (pos / cs)) _ _ _ X8); cbn [look2 blocks2].
            - unfold look. rewrite X1, (proj2 (N.ltb_lt _ _) HposP), X2 by exact HposP.
              rewrite (proj2 (N.ltb_ge (pos / cs) (pos / cs))) by lia. reflexivity.
            - rewrite (proj2 (N.ltb_ge (pos / cs) (pos / cs))) by lia. apply blocks_in, HposP. }
          unfold has_block in Hblk. destruct (vnth (cbn_ptrs n) (pos / cs)) as [id0|] eqn:Ep.
          2:{ rewrite (chunk_split m pos _ Em) in Hblk. destruct (ents m (pos / cs * cs) _); discriminate. }
          destruct Hblk as [Hf0 _].
          rewrite (get_slice_ok (cbn_chunks n) h m P pos l v id0 (cr_words _ _ _ R) (cr_good _ _ _ R)) by
            (first [rewrite (cr_len _ _ _ R); exact HposP|assumption]).
          rewrite bind_ret. destruct (enc (body (l, v))) as [|e0 es] eqn:Eenc; [destruct (enc_nonempty _ Eenc)|].
          rewrite <- Eenc. clear Eenc e0 es.
          assert (HyC : y / cs < 2 * C) by (apply pos_lt; lia).
          assert (Hfree : mk !! y = None).
          { destruct (mk !! y) as [e|] eqn:Ey; [|reflexivity]. apply X7 in Ey as (x & Hx & Hfx & _).
            assert (x = pos) by (apply (Hinj x pos y); try assumption; lia). lia. }
          destruct (set_slice_ok nptrs nchunks h mk (2 * C * cs) y (body (l, v)) X5 X6) as (c' & Es & Hc' & Hbit).
          { rewrite X4. exact HyC. } { congruence. } { exact Hfree. }
          { apply (owns_block _ _ _ (inr (y / cs)) _ _ _ X8); cbn [look2 blocks2].
            - apply look_in. rewrite X3. exact HyC.
            - apply blocks_in, HyC. }
          rewrite Es. exists (<[y := (l, v)]> mk). eexists _, _, _. split; [reflexivity|].
          split; [rewrite vlen_upd; exact X3|]. split; [rewrite vlen_upd; exact X4|].
          split; [apply words_insert; try assumption; rewrite X4; exact HyC|].
          destruct (cr_good _ _ _ R pos l v Em) as (_ & Hv & Hs).
          split; [apply goodm_insert; try assumption; lia|]. split.
          - intros z e. destruct (decide (z = y)) as [->|Hne].
            + rewrite lookup_insert. split.
              * intros [= <-]. exists pos. split; [lia|]. auto.
              * intros (x & Hx & Hfx & Hmx). assert (x = pos) by (apply (Hinj x pos y); try assumption; lia). congruence.
            + rewrite lookup_insert_ne by congruence. rewrite X7.
              split; intros (x & Hx & H1 & H2); exists x; (split; [|auto]); [lia|].
              destruct (N.eq_dec x pos) as [->|]; [congruence|lia].
          - destruct (blocks_insert (2 * C) mk y (l, v) HyC) as [B1 B2].
            assert (HyN : y / cs < vlen nptrs) by (rewrite X3; exact HyC).
            destruct (look_upd nptrs (y / cs) (Some (h_next h)) HyN) as [L1 L2].
            rewrite <- (look_in nptrs (y / cs) HyN). change (look nptrs (y / cs)) with (look2 ptrs nptrs (inr (y / cs))).
            apply (owns_replace (look2 ptrs nptrs) _ h (blocks2 (pos / cs) C m mk) _ (inr (y / cs)) _ X8).
            + intros [j|j] Hj; cbn [look2 blocks2]; [auto|].
              assert (j <> y / cs) by congruence. split; [apply L2; assumption|apply B2; assumption].
            + exact L1.
            + exact B1.
            + intros j. apply sum_dec. }
        destruct Hmid as (mk' & nptrs' & nchunks' & h' & -> & Y3 & Y4 & Y5 & Y6 & Y7 & Y8). rewrite bind_ret.
        destruct (N.eqb_spec (pos mod cs) (cs - 1)) as [Hlast|Hlast].
        + rewrite vget_ok by lia. rewrite bind_ret, vset_ok by lia. rewrite bind_ret.
          rewrite hp_delete_ok.
          2:{ intros id Hid. rewrite <- (look_in ptrs (pos / cs)) in Hid by lia.
              destruct (ow_some _ _ _ Y8 (inl (pos / cs)) id Hid) as (blk & Hf & _). eauto. }
          rewrite bind_ret. apply wp_ret. exists mk'.
          assert (Hstep : (pos + 1) / cs = pos / cs + 1). { rewrite div_step. rewrite (proj2 (N.eqb_eq _ _) Hlast). reflexivity. }
          split; cbn [fst snd]; try assumption.
          * intros c Hc. rewrite Hstep, vnth_upd. destruct (N.eqb_spec c (pos / cs)) as [->|Hne].
            { destruct (N.ltb_spec (pos / cs) (pos / cs + 1)); [reflexivity|lia]. }
            rewrite X2 by exact Hc. destruct (N.ltb_spec c (pos / cs)), (N.ltb_spec c (pos / cs + 1)); try lia; reflexivity.
          * rewrite Hstep. assert (HpC : pos / cs < vlen ptrs) by lia.
            destruct (look_upd ptrs (pos / cs) None HpC) as [L1 L2].
            rewrite <- (look_in ptrs (pos / cs) HpC). change (look ptrs (pos / cs)) with (look2 ptrs nptrs' (inl (pos / cs))).
            apply (owns_free (look2 ptrs nptrs') _ h' (blocks2 (pos / cs) C m mk') _ (inl (pos / cs)) Y8).
            { intros [j|j] Hj; cbn [look2 blocks2]; [|auto]. assert (j <> pos / cs) by congruence.
              split; [apply L2; assumption|].
              destruct (N.ltb_spec j (pos / cs)), (N.ltb_spec j (pos / cs + 1)); try lia; reflexivity. }
            { exact L1. }
            { cbn [blocks2]. destruct (N.ltb_spec (pos / cs) (pos / cs + 1)); [reflexivity|lia]. }
            { intros j. apply sum_dec. }
        + apply wp_ret. exists mk'.
          assert (Hstep : (pos + 1) / cs = pos / cs). { rewrite div_step. rewrite (proj2 (N.eqb_neq _ _) Hlast). reflexivity. }
          split; cbn [fst snd]; try assumption; rewrite Hstep; assumption. }
    apply wp_inv in Hloop as ([[[ptrs nptrs] nchunks] h] & El & mk & X). rewrite El, bind_ret. clear El.
    destruct X as [X1 X2 X3 X4 X5 X6 X7 X8]. cbn [fst snd] in *.
    assert (HqC : P / cs = C) by (rewrite HPC; apply N.div_mul; lia).
    rewrite HqC in *.
    assert (Hpn : forall i, i < vlen ptrs -> vnth ptrs i = None).
    { intros i Hi. rewrite X1 in Hi. rewrite X2 by exact Hi. destruct (N.ltb_spec i C); [reflexivity|lia]. }
    rewrite free_none by exact Hpn.
    rewrite bind_ret. eexists. split; [reflexivity|].
    assert (Emk : mk = m').
    { apply map_eq. intros y. apply option_eq. intros e. rewrite X7, Hm'. split.
      - intros (x & _ & H1 & H2). eauto.
      - intros (x & H1 & H2). exists x. split; [apply (Hdom x e H2)|auto]. }
    subst mk. split; cbn [cbn_ptrs cbn_chunks cbn_heap cbn_size cbn_bytes].
    - rewrite X3. lia.
    - congruence.
    - exact X5.
    - rewrite HC2 in X6. exact X6.
    - rewrite X3. split.
      + intros c id E. apply (ow_some _ _ _ X8 (inr c) id E).
      + intros c E. apply (ow_none _ _ _ X8 (inr c) E).
      + intros i j id E1 E2. enough (inr i = (inr j : N + N)) by congruence. apply (ow_inj _ _ _ X8 (inr i) (inr j) id E1 E2).
      + intros id blk E. destruct (ow_own _ _ _ X8 id blk E) as [[c|c] Hc]; cbn [look2] in Hc; [|eauto].
        unfold look in Hc. destruct (N.ltb_spec c (vlen ptrs)); [|discriminate]. rewrite Hpn in Hc by assumption. discriminate.
      + apply (ow_ok _ _ _ X8).
    - rewrite (cr_size _ _ _ R). do 2 f_equal. symmetry. apply (rename_size f m m').
      + intros x e Hx. apply (Hdom x e Hx).
      + intros x y z [ex Hx] [ey Hy]. apply Hinj; [apply (Hdom x ex Hx)|apply (Hdom y ey Hy)].
      + exact Hm'.
    - rewrite (cr_bytes _ _ _ R). f_equal. symmetry. apply (tot_rename f m m').
      + intros x e Hx. apply (Hdom x e Hx).
      + intros x y z [ex Hx] [ey Hy]. apply Hinj; [apply (Hdom x ex Hx)|apply (Hdom y ey Hy)].
      + exact Hm'.
  Qed.

  Lemma cbn_ok : blnm_ok (cbn_ops cs vs) (@tok (cbn_ops cs vs) false (fun _ _ => False) cbn_pt) cbn_rep cbn_pt.
  Proof.
    split; cbn [n_new n_compare n_insert n_heap n_set_heap n_vs n_expand cbn_ops].
    - apply cbn_new_ok.
    - intros P n m x k l v. apply cbn_compare_ok.
    - intros P n m x k R Hx Hm Hs. destruct (cbn_insert_ok P n m x k R Hx Hm Hs) as (p & n' & E & R' & Hp).
      exists p, n'. split; [exact E|]. split; [exact R'|]. split; [exact Hp|]. intros y [z|q] [H _]; [discriminate|destruct H].
    - apply cbn_read_ok.
    - intros P n m x p l v w R Hp Hm Hw. destruct (cbn_write_ok P n m x p l v w R Hp Hm Hw) as (h & E & R' & Hk).
      exists h. split; [exact E|]. split; [exact R'|]. split; [exact Hk|]. intros y [z|q] [H _]; [discriminate|destruct H].
    - intros P n m nm f m' R Hnm HP Hget Hinj Hr Hd Hm'.
      destruct (cbn_expand_ok P n m nm f m' R Hnm HP Hget Hinj Hr Hd Hm') as (n' & E & R').
      exists n'. split; [exact E|]. split; [exact R'|]. intros x y [z|q] [H _]; [discriminate|destruct H].
  Qed.

  (** The bytes actually allocated. *)
  Lemma cbn_total P n m : cbn_rep P n m -> hp_total (cbn_heap n) = tot m.
  Proof.
    intros R. pose proof cs_pos. set (C := vlen (cbn_ptrs n)).
    rewrite (owns_total (N.to_nat C) _ _ _ (cr_owns _ _ _ R)).
    2:{ intros i Hi. unfold look. fold C. destruct (N.ltb_spec i C); [lia|reflexivity]. }
    rewrite (tot_sum m (N.to_nat C * K)).
    2:{ intros x [l v] E. destruct (cr_good _ _ _ R x l v E) as (Hx & _). rewrite (cr_P _ _ _ R) in Hx. fold C in Hx. lia. }
    rewrite sumn_blocks. apply sumn_ext. intros c Hc. unfold blocks. fold C.
    rewrite (proj2 (N.ltb_lt c C)) by lia. rewrite N2Nat.id. rewrite <- encs_ents. unfold chunk.
    destruct (ents m (c * cs) K); reflexivity.
  Qed.
End cbn.
