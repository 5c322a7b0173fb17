Require Import ZArith Lia Bool.
From Verif Require Import Base Base_facts IntArith_model IntArith_spec.
Open Scope Z_scope.

Lemma wraps_s64 : forall x, wraps_to x (s64 x).
Proof.
  intros x. split.
  - pose proof (s64_range x). unfold_consts. lia.
  - destruct (s64_eqm x) as [k E]. exists k. rewrite E. reflexivity.
Qed.

Lemma wraps_fun : forall x r, wraps_to x r -> r = s64 x.
Proof.
  intros x r [H [k E]]. symmetry. apply (s64_unique x r k).
  - unfold_consts. lia.
  - exact E.
Qed.

Lemma s64_eq_wraps : forall x r, s64 x = r -> wraps_to x r.
Proof. intros; subst; apply wraps_s64. Qed.

Lemma int_add_spec : forall a b, wraps_to (a + b) (int_add a b).
Proof.
  intros a b. apply s64_eq_wraps. unfold int_add, intop. symmetry.
  destruct (u64_eqm a) as [k E]. destruct (u64_eqm b) as [k' E'].
  rewrite E, E'. apply (s64_cong _ _ (k+k')). lia.
Qed.

Lemma int_sub_spec : forall a b, wraps_to (a - b) (int_sub a b).
Proof.
  intros a b. apply s64_eq_wraps. unfold int_sub, intop. symmetry.
  destruct (u64_eqm a) as [k E]. destruct (u64_eqm b) as [k' E'].
  rewrite E, E'. apply (s64_cong _ _ (k-k')). lia.
Qed.

Lemma int_mul_spec : forall a b, wraps_to (a * b) (int_mul a b).
Proof.
  intros a b. apply s64_eq_wraps. unfold int_mul, intop. symmetry.
  destruct (u64_eqm a) as [k E]. destruct (u64_eqm b) as [k' E'].
  rewrite E, E'. apply (s64_cong _ _ (a*k'+b*k+k*k'*two64)). ring.
Qed.

Lemma int_unm_spec : forall a, wraps_to (- a) (int_unm a).
Proof.
  intros a. unfold int_unm. replace (- a) with (0 - a) by lia. apply int_sub_spec.
Qed.

Lemma special_divisor : forall n, is_s64 n ->
  (u64 (u64 n + 1) <=? 1) = true <-> n = 0 \/ n = -1.
Proof.
  intros n H. rewrite Z.leb_le.
  destruct (Z_lt_le_dec n 0).
  - rewrite (u64_neg n) by (unfold_consts; lia).
    destruct (Z.eq_dec n (-1)).
    + subst. vm_compute. intuition congruence.
    + rewrite u64_id by (unfold_consts; lia). unfold_consts. lia.
  - rewrite (u64_nonneg n) by (unfold_consts; lia).
    rewrite u64_id by (unfold_consts; lia). lia.
Qed.

Lemma quot_rem_bounds : forall m n, n <> 0 ->
  m = n * Z.quot m n + Z.rem m n /\
  Z.abs (Z.rem m n) < Z.abs n /\
  (m >= 0 -> Z.rem m n >= 0) /\ (m <= 0 -> Z.rem m n <= 0).
Proof.
  intros m n H. split; [apply Z.quot_rem'|]. split.
  - apply Z.rem_bound_abs. assumption.
  - split; intros.
    + pose proof (Z.rem_nonneg m n H). lia.
    + pose proof (Z.rem_nonpos m n H). lia.
Qed.

Lemma lxor_neg : forall a b, (Z.lxor a b <? 0) = xorb (a <? 0) (b <? 0).
Proof.
  intros a b.
  pose proof (Z.lxor_nonneg a b) as H.
  destruct (Z.ltb_spec (Z.lxor a b) 0); destruct (Z.ltb_spec a 0);
    destruct (Z.ltb_spec b 0); simpl; auto; exfalso; lia.
Qed.

Lemma idiv_mod_ok : forall m n, is_s64 m -> is_s64 n -> n <> 0 ->
  exists q r qr, luaV_idiv m n = Ok qr /\ luaV_mod m n = Ok r /\
    floor_quot_rem m n q r /\ wraps_to q qr.
Proof.
  intros m n Hm Hn H0.
  unfold luaV_idiv, luaV_mod.
  destruct (u64 (u64 n + 1) <=? 1) eqn:Es.
  - apply special_divisor in Es; [|assumption]. destruct Es as [Es|Es]; [lia|]. subst n.
    simpl. exists (- m), 0, (int_sub 0 m). split; [reflexivity|]. split; [reflexivity|].
    split; [unfold floor_quot_rem; lia|].
    replace (- m) with (0 - m) by lia. apply int_sub_spec.
  - assert (Hn1 : n <> 0 /\ n <> -1).
    { split; intro; subst; vm_compute in Es; discriminate. }
    destruct (quot_rem_bounds m n H0) as (E & B1 & B2 & B3).
    set (q := Z.quot m n) in *. set (r := Z.rem m n) in *.
    assert (Hq : is_s64 q).
    { unfold_consts. destruct (Z.eq_dec n 1); [subst n; lia|].
      assert (2 <= Z.abs n) by lia. nia. }
    rewrite (c_signed_ok q Hq). simpl.
    assert (Hr : is_s64 r) by (unfold_consts; lia).
    rewrite (c_signed_ok r Hr). simpl.
    rewrite !lxor_neg.
    destruct (Z.eqb_spec r 0) as [Er|Er].
    + rewrite andb_false_r. simpl. exists q, r, q. split; [reflexivity|]. split; [reflexivity|].
      split; [unfold floor_quot_rem; lia|]. apply s64_eq_wraps. apply s64_id. assumption.
    + simpl. rewrite andb_true_r.
      destruct (Z.ltb_spec m 0); destruct (Z.ltb_spec n 0); simpl;
      destruct (Z.ltb_spec r 0); simpl; try lia.
      * exists q, r, q. split; [reflexivity|]. split; [reflexivity|].
        split; [unfold floor_quot_rem; lia|]. apply s64_eq_wraps. apply s64_id. assumption.
      * assert (is_s64 (q - 1)).
        { unfold_consts. assert (2 <= n) by lia. nia. }
        assert (is_s64 (r + n)) by (unfold_consts; lia).
        rewrite !c_signed_ok by assumption.
        exists (q-1), (r+n), (q-1). split; [reflexivity|]. split; [reflexivity|].
        split; [unfold floor_quot_rem; lia|]. apply s64_eq_wraps. apply s64_id. assumption.
      * assert (is_s64 (q - 1)).
        { unfold_consts. assert (n <= -2) by lia. nia. }
        assert (is_s64 (r + n)) by (unfold_consts; lia).
        rewrite !c_signed_ok by assumption.
        exists (q-1), (r+n), (q-1). split; [reflexivity|]. split; [reflexivity|].
        split; [unfold floor_quot_rem; lia|]. apply s64_eq_wraps. apply s64_id. assumption.
      * exists q, r, q. split; [reflexivity|]. split; [reflexivity|].
        split; [unfold floor_quot_rem; lia|]. apply s64_eq_wraps. apply s64_id. assumption.
Qed.

Lemma idiv_mod_zero : forall m, luaV_idiv m 0 = Err EDivZero /\ luaV_mod m 0 = Err EModZero.
Proof. intros; split; reflexivity. Qed.

(* bit patterns *)
Lemma u64_testbit : forall x i, 0 <= i < 64 -> Z.testbit (u64 x) i = Z.testbit x i.
Proof.
  intros x i H. unfold u64. change two64 with (2^64).
  apply Z.mod_pow2_bits_low. lia.
Qed.

Lemma s64_testbit : forall x i, 0 <= i < 64 -> Z.testbit (s64 x) i = Z.testbit x i.
Proof.
  intros x i H. rewrite <- u64_testbit by assumption. rewrite u64_s64.
  apply u64_testbit. assumption.
Qed.

Lemma s64_ext : forall x y, is_s64 x -> is_s64 y ->
  (forall i, 0 <= i < 64 -> Z.testbit x i = Z.testbit y i) -> x = y.
Proof.
  intros x y Hx Hy H.
  rewrite <- (s64_id x Hx), <- (s64_id y Hy), <- s64_u64, <- (s64_u64 y). f_equal.
  apply Z.bits_inj'. intros n Hn. destruct (Z_lt_le_dec n 64).
  - rewrite !u64_testbit by lia. apply H. lia.
  - unfold u64. change two64 with (2^64). rewrite !Z.mod_pow2_bits_high by lia. reflexivity.
Qed.

Lemma int_band_spec : forall a b, is_s64 (int_band a b) /\ forall i, 0 <= i < 64 -> Z.testbit (int_band a b) i = (Z.testbit a i && Z.testbit b i).
Proof.
  intros a b. split; [apply s64_range|]. intros i H. unfold int_band, intop.
  rewrite s64_testbit, Z.land_spec, !u64_testbit by assumption. reflexivity.
Qed.

Lemma int_bor_spec : forall a b, is_s64 (int_bor a b) /\ forall i, 0 <= i < 64 -> Z.testbit (int_bor a b) i = (Z.testbit a i || Z.testbit b i).
Proof.
  intros a b. split; [apply s64_range|]. intros i H. unfold int_bor, intop.
  rewrite s64_testbit, Z.lor_spec, !u64_testbit by assumption. reflexivity.
Qed.

Lemma int_bxor_spec : forall a b, is_s64 (int_bxor a b) /\ forall i, 0 <= i < 64 -> Z.testbit (int_bxor a b) i = xorb (Z.testbit a i) (Z.testbit b i).
Proof.
  intros a b. split; [apply s64_range|]. intros i H. unfold int_bxor, intop.
  rewrite s64_testbit, Z.lxor_spec, !u64_testbit by assumption. reflexivity.
Qed.

Lemma int_bnot_spec : forall a, is_s64 (int_bnot a) /\ forall i, 0 <= i < 64 -> Z.testbit (int_bnot a) i = negb (Z.testbit a i).
Proof.
  intros a. split; [apply s64_range|]. intros i H. unfold int_bnot, intop.
  rewrite s64_testbit, Z.lxor_spec, !u64_testbit by assumption.
  replace (two64 - 1) with (Z.ones 64) by reflexivity.
  rewrite Z.ones_spec_low by lia. destruct (Z.testbit a i); reflexivity.
Qed.

Lemma shiftl_spec : forall x y, is_s64 y -> shift_spec x y (luaV_shiftl x y).
Proof.
  intros x y Hy. unfold shift_spec, luaV_shiftl, NBITS.
  destruct (Z.leb_spec 0 y); destruct (Z.ltb_spec y 0); try lia.
  - destruct (Z.leb_spec 64 y).
    + split; [lia|]. exists (- (x * 2^(y-64))).
      replace (2^y) with (2^(y-64) * 2^64) by (rewrite <- Z.pow_add_r by lia; f_equal; lia). ring.
    + apply s64_eq_wraps. unfold intop. rewrite (u64_id y) by (unfold_consts; lia).
      rewrite Z.shiftl_mul_pow2 by lia. destruct (u64_eqm x) as [k E]. rewrite E.
      symmetry. apply (s64_cong _ _ (k * 2^y)). ring.
  - change (- (64)) with (-64). change (2^64) with two64. fold (u64 x). pose proof (u64_range x) as Hx.
    destruct (Z.leb_spec y (-64)).
    + assert (Hd : u64 x / 2^(-y) = 0).
      { apply Z.div_small. unfold is_u64 in Hx. split; [lia|]. apply Z.lt_le_trans with two64; [lia|].
        change two64 with (2^64). apply Z.pow_le_mono_r; lia. }
      rewrite Hd. apply (s64_eq_wraps 0 0). reflexivity.
    + apply s64_eq_wraps. unfold intop. rewrite (u64_id (-y)) by (unfold_consts; lia).
      rewrite Z.shiftr_div_pow2 by lia. reflexivity.
Qed.

Lemma shl_spec : forall x n, is_s64 n -> exists r, op_shl x n = Ok r /\ shift_spec x n r.
Proof. intros x n H. exists (luaV_shiftl x n). split; [reflexivity|]. apply shiftl_spec; assumption. Qed.

Lemma shr_spec : forall x n, is_s64 n -> n <> minint ->
  exists r, op_shr x n = Ok r /\ shift_spec x (-n) r.
Proof.
  intros x n H Hn. exists (luaV_shiftl x (-n)).
  assert (is_s64 (-n)) by (unfold_consts; lia).
  unfold op_shr. rewrite c_signed_ok by assumption. split; [reflexivity|].
  apply shiftl_spec. assumption.
Qed.

Lemma shr_minint_ub : forall x, op_shr x minint = UB.
Proof. intros. reflexivity. Qed.

Lemma shr_refuted : exists x n, is_s64 x /\ is_s64 n /\ op_shr x n = UB.
Proof. exists 1, minint. split; [unfold_consts; lia|]. split; [unfold_consts; lia|]. reflexivity. Qed.

Lemma intarith_spec : forall a b, is_s64 a -> is_s64 b ->
  (exists r, intarith OpAdd a b = Ok r /\ wraps_to (a + b) r) /\
  (exists r, intarith OpSub a b = Ok r /\ wraps_to (a - b) r) /\
  (exists r, intarith OpMul a b = Ok r /\ wraps_to (a * b) r) /\
  (exists r, intarith OpUnm a b = Ok r /\ wraps_to (- a) r) /\
  (b <> 0 -> exists q r qr, intarith OpIDiv a b = Ok qr /\ intarith OpMod a b = Ok r /\
     floor_quot_rem a b q r /\ wraps_to q qr) /\
  (exists r, intarith OpShl a b = Ok r /\ shift_spec a b r) /\
  (b <> minint -> exists r, intarith OpShr a b = Ok r /\ shift_spec a (- b) r) /\
  (exists r, intarith OpBand a b = Ok r /\ is_s64 r /\ forall i, 0 <= i < 64 ->
     Z.testbit r i = andb (Z.testbit a i) (Z.testbit b i)) /\
  (exists r, intarith OpBor a b = Ok r /\ is_s64 r /\ forall i, 0 <= i < 64 ->
     Z.testbit r i = orb (Z.testbit a i) (Z.testbit b i)) /\
  (exists r, intarith OpBxor a b = Ok r /\ is_s64 r /\ forall i, 0 <= i < 64 ->
     Z.testbit r i = xorb (Z.testbit a i) (Z.testbit b i)) /\
  (exists r, intarith OpBnot a b = Ok r /\ is_s64 r /\ forall i, 0 <= i < 64 ->
     Z.testbit r i = negb (Z.testbit a i)).
Proof.
  intros a b Ha Hb. unfold intarith.
  repeat split.
  - eexists; split; [reflexivity|apply int_add_spec].
  - eexists; split; [reflexivity|apply int_sub_spec].
  - eexists; split; [reflexivity|apply int_mul_spec].
  - eexists; split; [reflexivity|apply int_unm_spec].
  - intros H. apply idiv_mod_ok; assumption.
  - apply shl_spec; assumption.
  - intros H. apply shr_spec; assumption.
  - eexists; split; [reflexivity|apply int_band_spec].
  - eexists; split; [reflexivity|apply int_bor_spec].
  - eexists; split; [reflexivity|apply int_bxor_spec].
  - eexists; split; [reflexivity|apply int_bnot_spec].
Qed.
