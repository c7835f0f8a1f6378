From Verif.Proofs Require Export BitTools2P.
From Verif.Model Require Export Hash.
Local Open Scope N_scope.

(** ** split_mix_hasher *)
Definition sm_the (b : N) : split_mix := mkHasher (b / 2 + 1) (mkP2 b (N.ones b)).
Lemma sm_new_ok b : 1 <= b < 64 -> sm_new b = Ret (sm_the b).
Proof.
  intros H. unfold sm_new. rewrite assert_true.
  2:{ apply andb_true_iff. split; apply N.ltb_lt; lia. }
  rewrite bind_ret, p2_new_eq by lia. reflexivity.
Qed.
Definition prime (b : N) (inv : bool) (k : N) : N :=
  match prime_entry b inv k with Ret p => p | _ => 0 end.
Definition prime_ok (b : N) : bool :=
  check_below 3 (fun k =>
    match prime_entry (b + 1) false k, prime_entry (b + 1) true k with
    | Ret p, Ret q => (p * q) mod 2 ^ (b + 1) =? 1
    | _, _ => false
    end).
Lemma prime_table_true : check_below 63 prime_ok = true.
Proof. vm_compute. reflexivity. Qed.
Lemma prime_inv b k : 1 <= b < 64 -> k < 3 ->
  prime_entry b false k = Ret (prime b false k) /\ prime_entry b true k = Ret (prime b true k) /\
  (prime b false k * prime b true k) mod 2 ^ b = 1.
Proof.
  intros Hb Hk. assert (H1 : b - 1 < N.of_nat 63) by lia.
  pose proof (check_below_sound 63 prime_ok (b - 1) prime_table_true H1) as H.
  unfold prime_ok in H. replace (b - 1 + 1) with b in H by lia.
  pose proof (check_below_sound 3 _ k H Hk) as H2. cbv beta in H2. clear H. unfold prime.
  destruct (prime_entry b false k) as [p| | | |]; try discriminate.
  destruct (prime_entry b true k) as [q| | | |]; try discriminate.
  apply N.eqb_eq in H2. auto.
Qed.

Definition xsh (s x : N) : N := N.lxor x (shr x s).
Lemma lxor_lt a b n : a < 2 ^ n -> b < 2 ^ n -> N.lxor a b < 2 ^ n.
Proof.
  intros Ha Hb. apply lt_pow2_testbit. intros j Hj.
  rewrite N.lxor_spec, (testbit_high a n j Ha Hj), (testbit_high b n j Hb Hj). reflexivity.
Qed.
Lemma shr_le_lt x s n : x < 2 ^ n -> shr x s < 2 ^ n.
Proof.
  intros H. apply lt_pow2_testbit. intros j Hj. rewrite shr_testbit. apply (testbit_high x n); [exact H|lia].
Qed.
Lemma xsh_lt s x n : x < 2 ^ n -> xsh s x < 2 ^ n.
Proof. intros H. apply lxor_lt; [exact H|apply shr_le_lt, H]. Qed.
Lemma xsh_invol s x n : x < 2 ^ n -> n <= 2 * s -> xsh s (xsh s x) = x.
Proof.
  intros Hx Hs. unfold xsh. apply N.bits_inj. intros j.
  rewrite !N.lxor_spec, !shr_testbit, N.lxor_spec, shr_testbit.
  rewrite (testbit_high x n (j + s + s)) by (try exact Hx; lia).
  destruct (N.testbit x j), (N.testbit x (j + s)); reflexivity.
Qed.
Lemma mul64_mask x p b : b < 64 -> N.land (mul64 x p) (N.ones b) = (x * p) mod 2 ^ b.
Proof.
  intros Hb. rewrite land_ones_mod. unfold mul64. rewrite w64_mod.
  replace (2 ^ 64) with (2 ^ b * 2 ^ (64 - b)) by (rewrite <- N.pow_add_r; f_equal; lia).
  rewrite N.mod_mul_r by (apply N.pow_nonzero; discriminate).
  rewrite (N.mul_comm (2 ^ b)), N.mod_add by (apply N.pow_nonzero; discriminate).
  apply N.mod_mod, N.pow_nonzero. discriminate.
Qed.
Lemma mul_inv_mod x p q b : x < 2 ^ b -> 1 <= b -> (p * q) mod 2 ^ b = 1 ->
  ((x * p) mod 2 ^ b * q) mod 2 ^ b = x.
Proof.
  intros Hx Hb H. assert (Hz : 2 ^ b <> 0) by (apply N.pow_nonzero; discriminate).
  rewrite N.mul_mod_idemp_l by exact Hz. rewrite <- N.mul_assoc.
  rewrite N.mul_mod by exact Hz. rewrite H, N.mul_1_r.
  rewrite N.mod_mod by exact Hz. apply N.mod_small, Hx.
Qed.

Definition hs (b k x : N) : N := (xsh (b / 2 + 1 + k) x * prime b false k) mod 2 ^ b.
Definition hs_inv (b k x : N) : N := xsh (b / 2 + 1 + k) ((x * prime b true k) mod 2 ^ b).
Lemma hs_lt b k x : hs b k x < 2 ^ b.
Proof. apply N.mod_lt, N.pow_nonzero. discriminate. Qed.
Lemma hs_inv_lt b k x : hs_inv b k x < 2 ^ b.
Proof. apply xsh_lt, N.mod_lt, N.pow_nonzero. discriminate. Qed.
Lemma half_shift b : b <= 2 * (b / 2 + 1).
Proof. pose proof (N.div_mod b 2 ltac:(discriminate)). pose proof (N.mod_lt b 2 ltac:(discriminate)). lia. Qed.
Lemma hs_hs_inv b k x : 1 <= b < 64 -> k < 3 -> x < 2 ^ b ->
  hs_inv b k (hs b k x) = x /\ hs b k (hs_inv b k x) = x.
Proof.
  intros Hb Hk Hx. destruct (prime_inv b k Hb Hk) as (_ & _ & Hpq).
  pose proof (half_shift b). unfold hs, hs_inv. split.
  - rewrite mul_inv_mod; [|apply xsh_lt, Hx|lia|exact Hpq].
    apply xsh_invol with b; [exact Hx|lia].
  - rewrite xsh_invol with (n := b); [|apply N.mod_lt, N.pow_nonzero; discriminate|lia].
    apply mul_inv_mod; [exact Hx|lia|]. rewrite N.mul_comm. exact Hpq.
Qed.
Lemma hash_step_ok b k x : 1 <= b < 64 -> k < 3 -> hash_step (sm_the b) k x = Ret (hs b k x).
Proof.
  intros Hb Hk. unfold hash_step; simpl. destruct (prime_inv b k Hb Hk) as (-> & _ & _). simpl.
  rewrite mul64_mask by lia. reflexivity.
Qed.
Lemma hash_inv_step_ok b k x : 1 <= b < 64 -> k < 3 -> hash_inv_step (sm_the b) k x = Ret (hs_inv b k x).
Proof.
  intros Hb Hk. unfold hash_inv_step; simpl. destruct (prime_inv b k Hb Hk) as (_ & -> & _). simpl.
  rewrite mul64_mask by lia. reflexivity.
Qed.
(** The hash of a [b]-bit universe and its inverse, as pure functions. *)
Definition sm_fun (b x : N) : N := hs b 2 (hs b 1 (hs b 0 x)).
Definition sm_finv (b x : N) : N := hs_inv b 0 (hs_inv b 1 (hs_inv b 2 x)).
Lemma sm_hash_ok b x : 1 <= b < 64 -> x < 2 ^ b -> sm_hash (sm_the b) x = Ret (sm_fun b x).
Proof.
  intros Hb Hx. unfold sm_hash. rewrite assert_true.
  2:{ apply N.ltb_lt. simpl. rewrite p2_size_ones by lia. exact Hx. }
  rewrite bind_ret, hash_step_ok, bind_ret, hash_step_ok, bind_ret by lia. apply hash_step_ok; lia.
Qed.
Lemma sm_inv_ok b x : 1 <= b < 64 -> x < 2 ^ b -> sm_hash_inv (sm_the b) x = Ret (sm_finv b x).
Proof.
  intros Hb Hx. unfold sm_hash_inv. rewrite assert_true.
  2:{ apply N.ltb_lt. simpl. rewrite p2_size_ones by lia. exact Hx. }
  rewrite bind_ret, hash_inv_step_ok, bind_ret, hash_inv_step_ok, bind_ret by lia.
  apply hash_inv_step_ok; lia.
Qed.
Lemma sm_fun_lt b x : sm_fun b x < 2 ^ b.
Proof. apply hs_lt. Qed.
Lemma sm_finv_lt b x : sm_finv b x < 2 ^ b.
Proof. apply hs_inv_lt. Qed.
Lemma sm_finv_fun b x : 1 <= b < 64 -> x < 2 ^ b -> sm_finv b (sm_fun b x) = x.
Proof.
  intros Hb Hx. unfold sm_finv, sm_fun.
  rewrite (proj1 (hs_hs_inv b 2 _ Hb ltac:(lia) (hs_lt _ _ _))).
  rewrite (proj1 (hs_hs_inv b 1 _ Hb ltac:(lia) (hs_lt _ _ _))).
  apply hs_hs_inv; (assumption || lia).
Qed.
Lemma sm_fun_finv b x : 1 <= b < 64 -> x < 2 ^ b -> sm_fun b (sm_finv b x) = x.
Proof.
  intros Hb Hx. unfold sm_finv, sm_fun.
  rewrite (proj2 (hs_hs_inv b 0 _ Hb ltac:(lia) (hs_inv_lt _ _ _))).
  rewrite (proj2 (hs_hs_inv b 1 _ Hb ltac:(lia) (hs_inv_lt _ _ _))).
  apply hs_hs_inv; (assumption || lia).
Qed.
Lemma sm_fun_inj b x y : 1 <= b < 64 -> x < 2 ^ b -> y < 2 ^ b -> sm_fun b x = sm_fun b y -> x = y.
Proof.
  intros Hb Hx Hy E. rewrite <- (sm_finv_fun b x), <- (sm_finv_fun b y) by assumption. rewrite E. reflexivity.
Qed.

(** ** vigna_hasher *)
Lemma xsh_inj s x y : 0 < s -> xsh s x = xsh s y -> x = y.
Proof.
  intros Hs E. unfold xsh in E.
  assert (Hz : shr (N.lxor x y) s = N.lxor x y).
  { apply N.bits_inj. intros j. apply (f_equal (fun z => N.testbit z j)) in E.
    rewrite !N.lxor_spec, !shr_testbit in E.
    rewrite shr_testbit, !N.lxor_spec.
    destruct (N.testbit x j), (N.testbit y j), (N.testbit x (j + s)), (N.testbit y (j + s)); simpl in *; congruence. }
  apply N.lxor_eq. destruct (N.eq_dec (N.lxor x y) 0) as [|Hne]; [assumption|].
  exfalso. rewrite shr_div in Hz.
  assert (N.lxor x y / 2 ^ s < N.lxor x y).
  { apply N.div_lt; [lia|]. change 1 with (2 ^ 0). apply pow2_lt, Hs. }
  lia.
Qed.
Lemma mul64_inj x y p q : x < 2 ^ 64 -> y < 2 ^ 64 -> (p * q) mod 2 ^ 64 = 1 ->
  mul64 x p = mul64 y p -> x = y.
Proof.
  intros Hx Hy H E. unfold mul64 in E. rewrite !w64_mod in E.
  rewrite <- (mul_inv_mod x p q 64), <- (mul_inv_mod y p q 64) by (assumption || lia).
  rewrite E. reflexivity.
Qed.
Lemma vigna_inj x y : x < 2 ^ 64 -> y < 2 ^ 64 -> vigna_hash x = vigna_hash y -> x = y.
Proof.
  intros Hx Hy E. unfold vigna_hash in E. cbv zeta in E.
  apply (xsh_inj 31) in E; [|lia].
  apply mul64_inj with (q := 0x319642b2d24d8ec3) in E.
  - apply (xsh_inj 27) in E; [|lia].
    apply mul64_inj with (q := 0x96de1b173f119089) in E.
    + apply (xsh_inj 30) in E; [exact E|lia].
    + apply (xsh_lt 30), Hx.
    + apply (xsh_lt 30), Hy.
    + vm_compute. reflexivity.
  - apply (xsh_lt 27), w64_lt.
  - apply (xsh_lt 27), w64_lt.
  - vm_compute. reflexivity.
Qed.
Lemma vigna_lt x : x < 2 ^ 64 -> vigna_hash x < 2 ^ 64.
Proof. intros. unfold vigna_hash. apply (xsh_lt 31), w64_lt. Qed.
#[global] Opaque sm_fun sm_finv vigna_hash.

(** ** Any bijective hasher *)
(** [hash] maps the universe into itself and [hash_inv] takes it back. *)
Class bij_ok (H : bij_hasher) : Prop := hasher_bij : forall bits, 1 <= bits <= 63 ->
  exists h, hasher_new bits = Ret h /\
    forall x, x < 2 ^ bits -> exists y, hasher_hash h x = Ret y /\ y < 2 ^ bits /\ hasher_hash_inv h y = Ret x.
Global Hint Mode bij_ok ! : typeclass_instances.
Global Instance split_mix_ok : bij_ok split_mix_hasher.
Proof.
  intros b Hb. exists (sm_the b). split; [apply sm_new_ok; lia|]. intros x Hx. exists (sm_fun b x).
  split; [apply sm_hash_ok; (lia || assumption)|]. split; [apply sm_fun_lt|].
  cbn [hasher_hash_inv split_mix_hasher]. rewrite sm_inv_ok by (apply sm_fun_lt || lia). rewrite sm_finv_fun by (assumption || lia). reflexivity.
Qed.

Section bij.
  Context {H : bij_hasher}.
  Definition the_hasher (b : N) : hasher := match hasher_new b with Ret h => h | _ => hasher_default end.
  Definition hfun (b x : N) : N := match hasher_hash (the_hasher b) x with Ret y => y | _ => 0 end mod 2 ^ b.
  Definition hinv (b x : N) : N := match hasher_hash_inv (the_hasher b) x with Ret y => y | _ => 0 end mod 2 ^ b.
  Lemma hfun_lt b x : hfun b x < 2 ^ b.
  Proof. apply N.mod_lt, N.pow_nonzero. discriminate. Qed.
  Lemma hinv_lt b x : hinv b x < 2 ^ b.
  Proof. apply N.mod_lt, N.pow_nonzero. discriminate. Qed.
  Context {HO : bij_ok H}.
  Lemma hasher_new_ok b : 1 <= b < 64 -> hasher_new b = Ret (the_hasher b).
  Proof. intros Hb. destruct (HO b ltac:(lia)) as (h & E & _). unfold the_hasher. rewrite E. reflexivity. Qed.
  Lemma hash_both b x : 1 <= b < 64 -> x < 2 ^ b -> hasher_hash (the_hasher b) x = Ret (hfun b x) /\
    hasher_hash_inv (the_hasher b) (hfun b x) = Ret x.
  Proof.
    intros Hb Hx. destruct (HO b ltac:(lia)) as (h & E & Hh). destruct (Hh x Hx) as (y & Ey & Hy & Ei).
    unfold hfun, the_hasher. rewrite E, Ey. rewrite N.mod_small by exact Hy. auto.
  Qed.
  Lemma hash_ok b x : 1 <= b < 64 -> x < 2 ^ b -> hasher_hash (the_hasher b) x = Ret (hfun b x).
  Proof. intros Hb Hx. apply hash_both; assumption. Qed.
  Lemma hfun_inj b x y : 1 <= b < 64 -> x < 2 ^ b -> y < 2 ^ b -> hfun b x = hfun b y -> x = y.
  Proof.
    intros Hb Hx Hy E. destruct (hash_both b x Hb Hx) as [_ Ex]. destruct (hash_both b y Hb Hy) as [_ Ey].
    rewrite E in Ex. congruence.
  Qed.
  (** An injection of a finite universe into itself meets every point. *)
  Lemma hfun_onto b y : 1 <= b < 64 -> y < 2 ^ b -> exists x, x < 2 ^ b /\ hfun b x = y.
  Proof.
    intros Hb Hy. set (U := map N.of_nat (List.seq 0 (N.to_nat (2 ^ b)))).
    assert (HU : forall z, In z U <-> z < 2 ^ b).
    { intros z. unfold U. rewrite in_map_iff. split.
      - intros (n & <- & Hn). apply in_seq in Hn. lia.
      - intros Hz. exists (N.to_nat z). split; [lia|]. apply in_seq. lia. }
    assert (NU : List.NoDup U). { apply FinFun.Injective_map_NoDup; [intros i j; lia|apply seq_NoDup]. }
    assert (NI : List.NoDup (map (hfun b) U)).
    { clear Hy. assert (Hi : forall z, In z U -> z < 2 ^ b) by (intros z; apply HU). clear HU. revert NU Hi. generalize U as l. clear U.
      induction l as [|a l IH]; intros N1 Hl; [constructor|]. inversion N1 as [|? ? Na N2]; subst. cbn [map]. constructor.
      - rewrite in_map_iff. intros (z & Ez & Hz). apply (hfun_inj b) in Ez; [subst; contradiction|exact Hb|apply Hl; right; exact Hz|apply Hl; left; reflexivity].
      - apply IH; [exact N2|]. intros z Hz. apply Hl. right. exact Hz. }
    assert (Hin : incl U (map (hfun b) U)).
    { apply NoDup_length_incl; [exact NI|rewrite map_length; reflexivity|].
      intros z Hz. apply in_map_iff in Hz as (x & <- & _). apply HU, hfun_lt. }
    assert (Hm : In y (map (hfun b) U)) by apply Hin, HU, Hy. rewrite in_map_iff in Hm. destruct Hm as (x & E & Hx). exists x. split; [apply HU, Hx|exact E].
  Qed.
  Lemma hash_inv_ok b x : 1 <= b < 64 -> x < 2 ^ b -> hasher_hash_inv (the_hasher b) x = Ret (hinv b x).
  Proof.
    intros Hb Hx. destruct (hfun_onto b x Hb Hx) as (z & Hz & <-). destruct (hash_both b z Hb Hz) as [_ Ez].
    unfold hinv. rewrite Ez, N.mod_small by exact Hz. reflexivity.
  Qed.
  Lemma hinv_hfun b x : 1 <= b < 64 -> x < 2 ^ b -> hinv b (hfun b x) = x.
  Proof. intros Hb Hx. destruct (hash_both b x Hb Hx) as [_ E]. unfold hinv. rewrite E. apply N.mod_small, Hx. Qed.
  Lemma hfun_hinv b x : 1 <= b < 64 -> x < 2 ^ b -> hfun b (hinv b x) = x.
  Proof. intros Hb Hx. destruct (hfun_onto b x Hb Hx) as (z & Hz & <-). rewrite hinv_hfun by assumption. reflexivity. Qed.
End bij.
