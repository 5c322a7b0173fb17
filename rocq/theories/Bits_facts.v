(* Bit-level lemmas on Z used by several proofs. *)
Require Import ZArith Lia Bool.
Open Scope Z_scope.

Lemma testbit_small : forall x k n, 0 <= x < 2^k -> k <= n -> Z.testbit x n = false.
Proof.
  intros x k n H Hn. destruct (Z.eq_dec x 0) as [->|Hx]; [apply Z.bits_0|].
  assert (0 <= k).
  { destruct (Z_lt_le_dec k 0); [|assumption]. rewrite Z.pow_neg_r in H by lia. lia. }
  apply Z.bits_above_log2; [lia|].
  apply Z.lt_le_trans with k; [|assumption]. apply Z.log2_lt_pow2; lia.
Qed.

Lemma land_shl_small : forall x y k, 0 <= k -> 0 <= x < 2^k -> Z.land x (Z.shiftl y k) = 0.
Proof.
  intros x y k Hk H. apply Z.bits_inj'. intros n Hn.
  rewrite Z.land_spec, Z.bits_0, Z.shiftl_spec by assumption.
  destruct (Z_lt_le_dec n k).
  - rewrite (Z.testbit_neg_r y) by lia. apply andb_false_r.
  - rewrite (testbit_small x k n) by assumption. reflexivity.
Qed.

Lemma lor_shl_add : forall x y k, 0 <= k -> 0 <= x < 2^k ->
  Z.lor x (Z.shiftl y k) = x + y * 2^k.
Proof.
  intros x y k Hk H.
  rewrite <- Z.shiftl_mul_pow2 by assumption.
  pose proof (land_shl_small x y k Hk H) as E.
  rewrite Z.add_nocarry_lxor by assumption.
  rewrite Z.lxor_lor by assumption. reflexivity.
Qed.

Lemma land_ones_mod : forall x k, 0 <= k -> Z.land x (Z.ones k) = x mod 2^k.
Proof. intros. apply Z.land_ones. assumption. Qed.

(* clearing a field: x land (lnot (m shl k)) *)
Lemma ldiff_field : forall x k w, 0 <= k -> 0 <= w ->
  Z.land x (Z.lnot (Z.shiftl (Z.ones w) k)) = x - (x / 2^k mod 2^w) * 2^k.
Proof.
  intros x k w Hk Hw.
  rewrite <- Z.ldiff_land.
  assert (E : Z.land x (Z.shiftl (Z.ones w) k) = (x / 2^k mod 2^w) * 2^k).
  { rewrite <- Z.land_ones by assumption. rewrite <- Z.shiftr_div_pow2 by assumption.
    rewrite <- Z.shiftl_mul_pow2 by assumption.
    apply Z.bits_inj'. intros n Hn.
    rewrite Z.land_spec, !Z.shiftl_spec by assumption.
    destruct (Z_lt_le_dec n k).
    - rewrite !(Z.testbit_neg_r _ (n-k)) by lia. apply andb_false_r.
    - rewrite Z.land_spec, Z.shiftr_spec by lia. f_equal. f_equal. lia. }
  rewrite <- E.
  rewrite Z.sub_nocarry_ldiff.
  - apply Z.bits_inj'. intros n Hn. rewrite !Z.ldiff_spec, Z.land_spec.
    destruct (Z.testbit x n); destruct (Z.testbit (Z.shiftl (Z.ones w) k) n); reflexivity.
  - apply Z.bits_inj'. intros n Hn. rewrite Z.ldiff_spec, Z.land_spec, Z.bits_0.
    destruct (Z.testbit x n); destruct (Z.testbit (Z.shiftl (Z.ones w) k) n); reflexivity.
Qed.
