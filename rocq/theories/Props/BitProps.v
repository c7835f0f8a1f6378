(** Properties C30-C39: hash functions, bit tricks, packed vectors, vbyte, load limit. *)
From Verif.Proofs Require Import SelectP SseP CompactVectorP BitVectorP VByteP HashP MaxSizeP.
Local Open Scope N_scope.

(** ** C30 split_mix_hasher is a bijection of every universe with the stated inverse *)
Theorem C30_split_mix_bijection : forall bits h, 1 <= bits <= 63 -> sm_new bits = Ret h ->
  forall x, x < 2 ^ bits ->
    exists y z, sm_hash h x = Ret y /\ y < 2 ^ bits /\ sm_hash_inv h y = Ret x /\
                sm_hash_inv h x = Ret z /\ z < 2 ^ bits /\ sm_hash h z = Ret x.
Proof.
  intros bits h Hb E x Hx. rewrite sm_new_ok in E by lia. injection E as <-.
  exists (sm_fun bits x), (sm_finv bits x).
  rewrite (sm_hash_ok bits x), (sm_inv_ok bits x) by (assumption || lia).
  rewrite (sm_inv_ok bits (sm_fun bits x)) by (apply sm_fun_lt || lia).
  rewrite (sm_hash_ok bits (sm_finv bits x)) by (apply sm_finv_lt || lia).
  rewrite sm_finv_fun, sm_fun_finv by (assumption || lia).
  repeat split; auto using sm_fun_lt, sm_finv_lt.
Qed.
Theorem C30_split_mix_constructible : forall bits,
  (exists h, sm_new bits = Ret h) <-> 1 <= bits <= 63.
Proof.
  intros bits. split.
  - intros [h E]. unfold sm_new in E. destruct (_ && _) eqn:Ec; [|discriminate].
    apply andb_true_iff in Ec as [H1 H2]. apply N.ltb_lt in H1, H2. lia.
  - intros H. eexists. apply sm_new_ok. lia.
Qed.
(** Two different points of the universe never collide (so quotienting loses nothing). *)
Theorem C30_split_mix_injective : forall bits h x y v, 1 <= bits <= 63 -> sm_new bits = Ret h ->
  sm_hash h x = Ret v -> sm_hash h y = Ret v -> x = y.
Proof.
  intros bits h x y v Hb E Ex Ey. rewrite sm_new_ok in E by lia. injection E as <-.
  assert (H : forall z, sm_hash (sm_the bits) z = Ret v -> z < 2 ^ bits).
  { intros z Hz. unfold sm_hash in Hz. destruct (_ <? _) eqn:Ec; [|discriminate].
    apply N.ltb_lt in Ec. simpl in Ec. rewrite p2_size_ones in Ec by lia. exact Ec. }
  pose proof (H x Ex) as Hx. pose proof (H y Ey) as Hy.
  rewrite sm_hash_ok in Ex, Ey by (assumption || lia).
  apply (sm_fun_inj bits); try (assumption || lia). congruence.
Qed.
Example C30_example : exists h, sm_new 24 = Ret h /\ sm_hash h 12345 = Ret 12391400 /\
  sm_hash_inv h 12391400 = Ret 12345.
Proof. eexists. split; [reflexivity|]. split; vm_compute; reflexivity. Qed.

(** ** C31 compact_vector is an array of fixed-width integers *)
(** [cv_history size width cv a]: [cv] was made by one of the constructors and then changed by
    successful [set]s only; [a] is the array of the values written so far. *)
Inductive cv_history (size width : N) : compact_vector -> (N -> N) -> Prop :=
  | cvh_new cv : cv_new size width = Ret cv -> cv_history size width cv (fun _ => 0)
  | cvh_init cv init : cv_new_init size width init = Ret cv -> init < 2 ^ width ->
      cv_history size width cv (fun _ => init)
  | cvh_set cv a i v cv' : cv_history size width cv a -> cv_set cv i v = Ret cv' ->
      cv_history size width cv' (fun j => if j =? i then v else a j).

Lemma cv_set_inv cv i v cv' : cv_wf cv -> cv_set cv i v = Ret cv' ->
  i < cv_size cv /\ v < 2 ^ cv_width cv.
Proof.
  intros Hwf E. unfold cv_set in E.
  destruct (i <? cv_size cv) eqn:E1; [|discriminate]. simpl in E.
  destruct (v <=? cv_mask cv) eqn:E2; [|discriminate].
  apply N.ltb_lt in E1. apply N.leb_le in E2. rewrite (cw_mask cv Hwf), N.ones_equiv in E2.
  pose proof (pow2_pos (cv_width cv)). lia.
Qed.
Lemma cv_history_inv size width cv a : 0 < width < 64 -> size * width + 64 < 2 ^ 64 ->
  cv_history size width cv a ->
  cv_wf cv /\ cv_size cv = size /\ cv_width cv = width /\ forall i, i < size -> cv_val cv i = a i.
Proof.
  intros Hw Hs H. induction H as [cv E|cv init E Hi|cv a i v cv' H IH E].
  - destruct (cv_new_wf size width cv) as (Hwf & H1 & H2); try (assumption || lia).
    repeat split; try apply Hwf; auto. intros i Hlt. eapply cv_new_val; eauto; lia.
  - destruct (cv_new_init_ok size width init) as (cv2 & E2 & H1 & H2 & H3 & H4 & _); try (assumption || lia).
    rewrite E in E2. injection E2 as <-. auto.
  - destruct IH as (Hwf & H1 & H2 & H3).
    destruct (cv_set_inv _ _ _ _ Hwf E) as [Hi Hv].
    destruct (cv_set_ok cv i v Hwf Hi Hv) as (cv2 & E2 & Hwf' & Hs' & Hw' & Hval).
    rewrite E in E2. injection E2 as <-.
    split; [exact Hwf'|]. split; [congruence|]. split; [congruence|].
    intros j Hj. rewrite Hval by lia. destruct (j =? i); [reflexivity|]. apply H3, Hj.
Qed.
Theorem C31_compact_vector_array : forall size width cv a,
  0 < width < 64 -> size * width + 64 < 2 ^ 64 -> cv_history size width cv a ->
  (forall i, i < size -> cv_get cv i = Ret (a i)) /\
  (forall i v, i < size -> v < 2 ^ width -> exists cv', cv_set cv i v = Ret cv').
Proof.
  intros size width cv a Hw Hs H. destruct (cv_history_inv _ _ _ _ Hw Hs H) as (Hwf & H1 & H2 & H3).
  split.
  - intros i Hi. rewrite cv_get_ok by (try rewrite H1; assumption). f_equal. apply H3, Hi.
  - intros i v Hi Hv. destruct (cv_set_ok cv i v Hwf) as (cv' & E & _); [lia|rewrite H2; exact Hv|].
    exists cv'. exact E.
Qed.
Theorem C31_compact_vector_constructor : forall size width, size * width + 64 < 2 ^ 64 ->
  (64 <= width -> cv_new size width = Throw ExWidth) /\
  (width < 64 -> exists cv, cv_new size width = Ret cv).
Proof.
  intros size width Hs. split; intros Hw.
  - unfold cv_new. rewrite (proj2 (N.leb_le _ _) Hw). reflexivity.
  - eexists. apply cv_new_eq; assumption.
Qed.
(** Width 0 is accepted by the constructor, but then there is no buffer to read from. *)
Theorem C31_width_zero_ub : forall size i, i < size ->
  exists cv, cv_new size 0 = Ret cv /\ cv_get cv i = UB.
Proof.
  intros size i Hi. eexists. split; [apply cv_new_eq; [lia|rewrite N.mul_0_r; reflexivity]|].
  unfold cv_get; simpl. rewrite assert_true by (apply N.ltb_lt, Hi). simpl.
  unfold mul64. rewrite N.mul_0_r. simpl. rewrite N.mul_0_r. reflexivity.
Qed.
Example C31_example : exists cv, 
  (let* cv := cv_new 10 13 in let* cv := cv_set cv 4 8191 in cv_set cv 5 1) = Ret cv /\
  cv_get cv 4 = Ret 8191 /\ cv_get cv 5 = Ret 1 /\ cv_get cv 6 = Ret 0.
Proof. eexists. split; [vm_compute; reflexivity|]. repeat split. Qed.

(** ** C32 resize *)
Theorem C32_resize_keeps_prefix : forall size width cv a n,
  0 < width < 64 -> size * width + 64 < 2 ^ 64 -> n * width + 64 < 2 ^ 64 ->
  cv_history size width cv a ->
  forall i, i < n -> cv_get (cv_resize cv n) i = Ret (if i <? size then a i else 0).
Proof.
  intros size width cv a n Hw Hs Hn H i Hi.
  assert (HZ : cv_zero cv /\ cv_clean cv).
  { induction H as [cv E|cv init E Hinit|cv a j v cv' H IH E].
    - apply (cv_new_clean size width); assumption || lia.
    - destruct (cv_new_init_ok size width init) as (cv2 & E2 & _ & _ & _ & _ & HZ); try (assumption || lia).
      rewrite E in E2. injection E2 as <-. exact HZ.
    - destruct (cv_history_inv _ _ _ _ Hw Hs H) as (Hwf & H1 & H2 & H3). destruct (IH) as [HA HB].
      destruct (cv_set_inv _ _ _ _ Hwf E) as [Hj Hv].
      split; [eapply cv_set_zero; eauto|eapply cv_set_clean; eauto]. }
  destruct HZ as [HZ HC].
  destruct (cv_history_inv _ _ _ _ Hw Hs H) as (Hwf & H1 & H2 & H3).
  destruct (cv_resize_ok cv n Hwf HZ) as (Hwf' & _ & Hs' & _ & Hpre & Hnew); [rewrite H2; exact Hn|].
  rewrite cv_get_ok by (try rewrite Hs'; assumption). f_equal.
  destruct (N.ltb_spec i size) as [Hlt|Hge].
  - rewrite Hpre by lia. apply H3, Hlt.
  - apply Hnew; [exact HC|lia|lia].
Qed.
(** After shrinking, growing again brings the old contents back. *)
Theorem C32_resize_stale_refuted : exists cv,
  (let* cv := cv_new 8 8 in cv_set cv 7 42) = Ret cv /\
  cv_get (cv_resize (cv_resize cv 4) 8) 7 = Ret 42.
Proof. eexists. split; vm_compute; reflexivity. Qed.

(** ** C33 bit_vector is an array of bits *)
(** [bv_history bv l]: [bv] was built by the public operations and [l] is the resulting list of bits. *)
Inductive bv_history : bit_vector -> list bool -> Prop :=
  | bvh_default : bv_history bv_default []
  | bvh_new size : size + 64 < 2 ^ 64 ->
      bv_history (bv_new size) (repeat false (N.to_nat size))
  | bvh_set bv l i b bv' : bv_history bv l -> bv_set bv i b = Ret bv' ->
      bv_history bv' (<[N.to_nat i := b]> l)
  | bvh_append_bit bv l b bv' : bv_history bv l -> N.of_nat (length l) + 65 < 2 ^ 64 ->
      bv_append_bit bv b = Ret bv' -> bv_history bv' (l ++ [b])
  | bvh_append_bits bv l bits len bv' : bv_history bv l -> bits < 2 ^ len -> len <= 64 ->
      N.of_nat (length l) + len + 64 < 2 ^ 64 -> bv_append_bits bv bits len = Ret bv' ->
      bv_history bv' (l ++ map (fun k => N.testbit bits (N.of_nat k)) (seq 0 (N.to_nat len))).

Definition bv_abs (bv : bit_vector) (l : list bool) : Prop :=
  bv_wf bv /\ bv_size bv = N.of_nat (length l) /\
  forall i, i < bv_size bv -> nth_error l (N.to_nat i) = Some (bvbit bv i).

Lemma bv_abs_app bv l bv' m : bv_abs bv l -> bv_wf bv' ->
  bv_size bv' = bv_size bv + N.of_nat (length m) ->
  (forall k, k < bv_size bv -> bvbit bv' k = bvbit bv k) ->
  (forall k, bv_size bv <= k < bv_size bv' ->
     nth_error m (N.to_nat (k - bv_size bv)) = Some (bvbit bv' k)) ->
  bv_abs bv' (l ++ m).
Proof.
  intros (Hwf & Hs & Hb) Hwf' Hs' H1 H2. split; [exact Hwf'|]. split.
  - rewrite app_length. lia.
  - intros i Hi. destruct (N.lt_ge_cases i (bv_size bv)) as [Hlt|Hge].
    + rewrite nth_error_app1 by lia. rewrite H1 by exact Hlt. apply Hb, Hlt.
    + rewrite nth_error_app2 by lia. rewrite <- H2 by lia. f_equal. lia.
Qed.
Lemma bv_set_size bv i b bv' : bv_set bv i b = Ret bv' -> i < bv_size bv.
Proof.
  unfold bv_set. destruct (i <? bv_size bv) eqn:E; [|discriminate]. intros _. apply N.ltb_lt, E.
Qed.
Lemma nth_error_seq_map {A} (g : nat -> A) n k : (k < n)%nat ->
  nth_error (map g (seq 0 n)) k = Some (g k).
Proof.
  intros H. rewrite nth_error_map. rewrite (nth_error_nth' _ 0%nat) by (rewrite seq_length; exact H).
  rewrite seq_nth by exact H. reflexivity.
Qed.
Lemma bv_history_abs bv l : bv_history bv l -> bv_abs bv l.
Proof.
  induction 1 as [|size Hs|bv l i b bv' H IH E|bv l b bv' H IH Hl E|bv l bits len bv' H IH Hb Hlen Hl E].
  - split; [|split; [reflexivity|simpl; intros; lia]].
    split; simpl; try reflexivity.
    + intros q. rewrite vnth_new. reflexivity.
    + intros k _ Hk. lia.
  - destruct (bv_new_ok size Hs) as (Hwf & H1 & H2). split; [exact Hwf|].
    split; [simpl; rewrite repeat_length; lia|]. intros i Hi. rewrite H2. simpl in Hi.
    rewrite (nth_error_nth' _ false) by (rewrite repeat_length; lia). f_equal. apply nth_repeat.
  - destruct IH as (Hwf & Hs & Hb). pose proof (bv_set_size _ _ _ _ E) as Hi.
    destruct (bv_set_ok bv i b Hwf Hi) as (bv2 & E2 & Hwf' & Hs' & Hb').
    rewrite E in E2. injection E2 as <-. split; [exact Hwf'|]. split; [rewrite insert_length; lia|].
    intros j Hj. rewrite Hb'. rewrite Hs' in Hj. destruct (N.eqb_spec j i) as [->|Hne].
    + rewrite <- nth_error_lookup || idtac.
      assert (Hlk : <[N.to_nat i := b]> l !! N.to_nat i = Some b) by (apply list_lookup_insert; lia).
      clear - Hlk. revert Hlk. generalize (N.to_nat i) (<[N.to_nat i := b]> l). clear.
      intros n l2; revert l2; induction n; destruct l2; simpl; intros; try discriminate; auto.
    + assert (Hlk : <[N.to_nat i := b]> l !! N.to_nat j = l !! N.to_nat j) by (apply list_lookup_insert_ne; lia).
      assert (Hcv : forall (l2 : list bool) n, nth_error l2 n = l2 !! n).
      { clear. intros l2 n; revert l2; induction n; destruct l2; simpl; auto. }
      rewrite Hcv, Hlk, <- Hcv. apply Hb, Hj.
  - pose proof IH as (Hwf & Hs & Hbit).
    destruct (bv_append_bit_ok bv b Hwf) as (bv2 & E2 & Hwf' & Hs' & Hb'); [lia|].
    rewrite E in E2. injection E2 as <-. apply bv_abs_app with bv; auto.
    + intros k Hk. rewrite Hb' by lia. destruct (N.ltb_spec k (bv_size bv)); [reflexivity|lia].
    + intros k Hk. rewrite Hb' by lia. destruct (N.ltb_spec k (bv_size bv)); [lia|].
      replace (k - bv_size bv) with 0 by lia. reflexivity.
  - pose proof IH as (Hwf & Hs & Hbit).
    destruct (bv_append_bits_ok bv bits len Hwf) as (bv2 & E2 & Hwf' & Hs' & Hb'); try (assumption || lia).
    rewrite E in E2. injection E2 as <-. apply bv_abs_app with bv; auto.
    + rewrite map_length, seq_length. lia.
    + intros k Hk. rewrite Hb' by lia. unfold appended. destruct (N.ltb_spec k (bv_size bv)); [reflexivity|lia].
    + intros k Hk. rewrite Hb' by lia. unfold appended.
      destruct (N.ltb_spec k (bv_size bv)); [lia|]. destruct (N.ltb_spec k (bv_size bv + len)); [|lia].
      rewrite nth_error_seq_map by lia. rewrite N2Nat.id. reflexivity.
Qed.
Theorem C33_bit_vector_list : forall bv l, bv_history bv l ->
  bv_size bv = N.of_nat (length l) /\
  (forall i, i < bv_size bv -> exists b, bv_get bv i = Ret b /\ nth_error l (N.to_nat i) = Some b) /\
  (forall i b, i < bv_size bv -> exists bv', bv_set bv i b = Ret bv') /\
  (forall pos len, pos + len <= bv_size bv -> len <= 63 ->
     exists v, bv_get_bits bv pos len = Ret v /\ v < 2 ^ len /\
       forall j, j < len -> nth_error l (N.to_nat (pos + j)) = Some (N.testbit v j)).
Proof.
  intros bv l H. destruct (bv_history_abs bv l H) as (Hwf & Hs & Hb).
  split; [exact Hs|]. split; [|split].
  - intros i Hi. exists (bvbit bv i). split; [apply bv_get_ok; assumption|apply Hb, Hi].
  - intros i b Hi. destruct (bv_set_ok bv i b Hwf Hi) as (bv' & E & _). eauto.
  - intros pos len Hp Hl. destruct (bv_get_bits_ok bv pos len Hwf Hp Hl) as (v & E & Hv & Hbit).
    exists v. split; [exact E|]. split; [exact Hv|]. intros j Hj. rewrite Hbit by exact Hj. apply Hb. lia.
Qed.
Theorem C33_append_total : forall bv l bits len b, bv_history bv l -> len <= 64 -> bits < 2 ^ len ->
  N.of_nat (length l) + len + 65 < 2 ^ 64 ->
  (exists bv', bv_append_bits bv bits len = Ret bv') /\ (exists bv', bv_append_bit bv b = Ret bv').
Proof.
  intros bv l bits len b H Hl Hb Hs. destruct (bv_history_abs bv l H) as (Hwf & Hsz & _). split.
  - destruct (bv_append_bits_ok bv bits len Hwf) as (bv' & E & _); try (assumption || lia). eauto.
  - destruct (bv_append_bit_ok bv b Hwf) as (bv' & E & _); [lia|]. eauto.
Qed.
Theorem C33_get_bits_64_undefined : forall bv pos, pos + 64 <= bv_size bv ->
  bv_get_bits bv pos 64 = UB.
Proof. exact bv_get_bits_64_ub. Qed.
Example C33_example : exists bv l, bv_history bv l /\ length l = 70%nat /\
  bv_get_bits bv 62 8 = Ret 0xAB.
Proof.
  eexists _, _. split; [|split].
  - eapply bvh_append_bits with (bv := bv_new 62) (bits := 0xAB) (len := 8).
    + apply bvh_new. reflexivity.
    + reflexivity.
    + discriminate.
    + vm_compute. reflexivity.
    + vm_compute. reflexivity.
  - vm_compute. reflexivity.
  - vm_compute. reflexivity.
Qed.

(** ** C34 vbyte round-trips and is self-delimiting *)
Theorem C34_vbyte_roundtrip : forall val, val < 2 ^ 64 ->
  exists codes, vbyte_encode val = Ret codes /\
    (1 <= length codes <= 10)%nat /\ Forall (fun c => c < 256) codes /\
    (forall rest, vbyte_decode (codes ++ rest) = Ret (val, N.of_nat (length codes))) /\
    (forall buf, vbyte_append buf val = Ret (buf ++ codes, N.of_nat (length codes))) /\
    vbyte_size val = Ret (N.of_nat (length codes)).
Proof.
  intros val H. exists (vb val).
  split; [apply vbyte_encode_ok, H|]. split.
  { split; [apply vb_nonempty|]. apply vb_length_le; [|lia].
    eapply N.lt_trans; [exact H|]. reflexivity. }
  split; [apply vb_bytes|]. split; [intros; apply vbyte_decode_ok, H|].
  split; [intros; apply vbyte_append_ok, H|apply vbyte_size_ok, H].
Qed.
Example C34_example : vbyte_encode 300 = Ret [0xAC; 2] /\ vbyte_decode [0xAC; 2; 77] = Ret (300, 2).
Proof. split; vm_compute; reflexivity. Qed.

(** ** C35 popcnt *)
Theorem C35_popcnt : forall w x, w = 8 \/ w = 16 \/ w = 32 \/ w = 64 -> x < 2 ^ w ->
  popcnt w x = Ret (ones_below x w) /\
  forall i, i < w -> popcnt_masked w x i = Ret (ones_below x i).
Proof.
  intros w x Hw Hx. split; [apply popcnt_ok; assumption|].
  intros i Hi. apply popcnt_masked_ok; assumption.
Qed.
Theorem C35_get_set_bit : forall w x i b, w = 8 \/ w = 16 \/ w = 32 \/ w = 64 -> x < 2 ^ w -> i < w ->
  get_bit w x i = Ret (N.testbit x i) /\
  exists y, set_bit w x i b = Ret y /\ y < 2 ^ w /\
    forall n, N.testbit y n = if n =? i then b else N.testbit x n.
Proof.
  intros w x i b Hw Hx Hi. assert (w <= 64) by (destruct Hw as [->|[->|[->| ->]]]; lia).
  split; [apply get_bit_ok; assumption|apply set_bit_ok; assumption].
Qed.
Example C35_example : ones_below 0xF0F0 16 = 8 /\ popcnt 16 0xF0F0 = Ret 8 /\ popcnt_masked 64 0xFF00FF 20 = Ret 12.
Proof. repeat split; vm_compute; reflexivity. Qed.

(** ** C36 select *)
Theorem C36_select : forall x i, x < 2 ^ 64 -> 1 <= i <= ones_below x 64 ->
  exists p, select x i = Ret p /\ p < 64 /\ N.testbit x p = true /\ ones_below x p = i - 1.
Proof. intros x i Hx [H1 H2]. apply select_ok; assumption. Qed.
Example C36_example : select 0x8000000000000101 3 = Ret 63.
Proof. vm_compute. reflexivity. Qed.

(** ** C37 msb, ceil_log2, words_for, is_power2, bits_to_bytes *)
Theorem C37_msb : forall x, x < 2 ^ 64 ->
  (0 < x -> exists n, msb x = Ret n /\ 2 ^ n <= x < 2 ^ (n + 1)) /\ (x = 0 -> msb x = Ret 0).
Proof.
  intros x Hx. split.
  - intros H. exists (N.log2 x). split; [apply msb_ok, Hx|]. rewrite N.add_1_r. apply N.log2_spec, H.
  - intros ->. vm_compute. reflexivity.
Qed.
Theorem C37_ceil_log2 : forall x, 1 <= x < 2 ^ 64 ->
  exists n, ceil_log2 x = Ret n /\ x <= 2 ^ n /\ forall m, x <= 2 ^ m -> n <= m.
Proof. intros x [H1 H2]. apply ceil_log2_ok; assumption. Qed.
Theorem C37_words_for : forall bits, bits + 64 < 2 ^ 64 ->
  64 * words_for bits < bits + 64 /\ bits <= 64 * words_for bits.
Proof.
  intros bits H. rewrite words_for_eq by exact H.
  pose proof (N.div_mod (bits + 63) 64 ltac:(discriminate)).
  pose proof (N.mod_lt (bits + 63) 64 ltac:(discriminate)). lia.
Qed.
Theorem C37_is_power2 : forall n, n < 2 ^ 64 -> (is_power2 n = true <-> exists k, n = 2 ^ k).
Proof. exact is_power2_ok. Qed.
Theorem C37_bits_to_bytes : forall b,
  8 * bits_to_bytes b < b + 8 /\ b <= 8 * bits_to_bytes b.
Proof.
  intros b. rewrite bits_to_bytes_ok.
  pose proof (N.div_mod (b + 7) 8 ltac:(discriminate)).
  pose proof (N.mod_lt (b + 7) 8 ltac:(discriminate)). lia.
Qed.
Example C37_example : msb 0x123456789 = Ret 32 /\ ceil_log2 1025 = Ret 11 /\ words_for 65 = 2 /\
  is_power2 64 = true /\ is_power2 0 = false /\ bits_to_bytes 9 = 2.
Proof. repeat split; vm_compute; reflexivity. Qed.

(** ** C38 the load limit *)
Theorem C38_load_limit_exact : forall b f, b <= 49 -> 1 <= f <= 99 ->
  max_size_of (2 ^ b) f = 2 ^ b * f / 100.
Proof. exact max_size_exact. Qed.
Theorem C38_load_limit_below_capacity : forall b f, b <= 57 -> 1 <= f <= 99 ->
  max_size_of (2 ^ b) f < 2 ^ b.
Proof. exact max_size_lt. Qed.
Theorem C38_load_limit_rounding_refuted : max_size_of (2 ^ 50) 54 = 2 ^ 50 * 54 / 100 + 1.
Proof. exact max_size_inexact. Qed.
Example C38_example : max_size_of (2 ^ 16) 90 = 58982.
Proof. vm_compute. reflexivity. Qed.

(** ** C39 vigna_hasher *)
Theorem C39_vigna_injective : forall x y, x < 2 ^ 64 -> y < 2 ^ 64 ->
  vigna_hash x = vigna_hash y -> x = y.
Proof. exact vigna_inj. Qed.
Example C39_example : vigna_hash 1 <> vigna_hash 2 /\ vigna_hash 1 = 6238072747940578789.
Proof. split; [intros H; vm_compute in H; discriminate|vm_compute; reflexivity]. Qed.

(** operator() with any seed. *)
Theorem C39_seeded_injective : forall seed x y, x < 2 ^ 64 -> y < 2 ^ 64 ->
  vigna_call seed x = vigna_call seed y -> x = y.
Proof.
  intros seed x y Hx Hy E. unfold vigna_call in E. apply vigna_inj in E.
  - unfold add64 in E. rewrite !w64_mod in E. clear -Hx Hy E.
    pose proof (N.div_mod (x + seed) (2 ^ 64) ltac:(discriminate)) as H1.
    pose proof (N.div_mod (y + seed) (2 ^ 64) ltac:(discriminate)) as H2. rewrite E in H1.
    assert (H3 : (x + seed) / 2 ^ 64 = (y + seed) / 2 ^ 64 \/ (x + seed) / 2 ^ 64 <> (y + seed) / 2 ^ 64) by (destruct (N.eq_dec ((x + seed) / 2 ^ 64) ((y + seed) / 2 ^ 64)); auto).
    generalize dependent ((x + seed) / 2 ^ 64). generalize dependent ((y + seed) / 2 ^ 64).
    generalize ((y + seed) mod 2 ^ 64). change (2 ^ 64) with 18446744073709551616 in *. intros. nia.
  - unfold add64. rewrite w64_mod. apply N.mod_lt. discriminate.
  - unfold add64. rewrite w64_mod. apply N.mod_lt. discriminate.
Qed.
Example C39_seeded_example : vigna_call vigna_seed 0 = vigna_hash 0x9e3779b97f4a7c15 /\ vigna_call vigna_seed 0 <> vigna_call vigna_seed 1.
Proof. split; [vm_compute; reflexivity|intros H; vm_compute in H; discriminate]. Qed.

(** ** C43 The build with SSE4.2 computes the same functions *)
Theorem C43_builds_agree : forall x, x < 2 ^ 64 ->
  (forall w, w = 8 \/ w = 16 \/ w = 32 \/ w = 64 -> x < 2 ^ w ->
     popcnt_sse w x = popcnt w x /\ forall i, popcnt_masked_sse w x i = popcnt_masked w x i) /\
  msb_sse x = msb x /\ ceil_log2_sse x = ceil_log2 x /\
  (forall i, 1 <= i <= ones_below x 64 -> select_sse x i = select x i).
Proof.
  intros x Hx. split; [|split; [apply msb_sse_ok, Hx|split; [apply ceil_log2_sse_ok, Hx|]]].
  - intros w Hw Hxw. split; [apply popcnt_sse_ok; assumption|]. intros i. apply popcnt_masked_sse_ok; assumption.
  - intros i [H1 H2]. apply select_sse_ok; assumption.
Qed.
(** Outside the contract of select they differ: with SSE4.2 a rank above the number of ones has no defined
    result (__builtin_ctzll(0)). *)
Theorem C43_select_out_of_range : forall x i, x < 2 ^ 64 -> ones_below x 64 < i <= 64 -> select_sse x i = UB.
Proof. intros x i Hx [H1 H2]. apply (select_sse_do x i Hx); [lia|exact H2|exact H1]. Qed.
Example C43_example : select_sse 0x8000000000000101 3 = Ret 63 /\ select_sse 0x8000000000000101 4 = UB /\
  select 0x8000000000000101 4 <> UB /\ popcnt_sse 64 0xF0F0F0F0F0F0F0F0 = Ret 32 /\ msb_sse 0x123456789 = Ret 32.
Proof. repeat split; vm_compute; reflexivity || discriminate. Qed.

Print Assumptions C30_split_mix_bijection.
Print Assumptions C31_compact_vector_array.
Print Assumptions C32_resize_keeps_prefix.
Print Assumptions C33_bit_vector_list.
Print Assumptions C34_vbyte_roundtrip.
Print Assumptions C35_popcnt.
Print Assumptions C36_select.
Print Assumptions C37_msb.
Print Assumptions C38_load_limit_exact.
Print Assumptions C39_vigna_injective.
Print Assumptions C39_seeded_injective.
Print Assumptions C43_builds_agree.
Print Assumptions C43_select_out_of_range.
