Require Import ZArith List Bool Lia.
From Verif Require Import Base Base_facts Bits_facts Bitlib_model Bitlib_spec.
Import ListNotations.
Open Scope Z_scope.



Lemma is_word_unique : forall r s f, is_word r f -> is_word s f -> r = s.
Proof.
  intros r s f [R1 R2] [S1 S2]. apply Z.bits_inj'. intros i Hi. destruct (Z.lt_ge_cases i 32).
  - rewrite R2, S2 by lia. reflexivity.
  - rewrite !(fun x H => testbit_small x 32 i H); auto.
Qed.

Lemma ub64 : forall x i, 0 <= i -> Z.testbit (u64 x) i = (i <? 64) && Z.testbit x i.
Proof.
  intros x i Hi. unfold u64. change two64 with (2^64). destruct (Z.ltb_spec i 64).
  - rewrite Z.mod_pow2_bits_low by lia. reflexivity.
  - rewrite Z.mod_pow2_bits_high by lia. reflexivity.
Qed.
Lemma ub32 : forall x i, 0 <= i -> Z.testbit (u32 x) i = (i <? 32) && Z.testbit x i.
Proof.
  intros x i Hi. unfold u32. change two32 with (2^32). destruct (Z.ltb_spec i 32).
  - rewrite Z.mod_pow2_bits_low by lia. reflexivity.
  - rewrite Z.mod_pow2_bits_high by lia. reflexivity.
Qed.

Lemma allones : ALLONES = Z.ones 32. Proof. reflexivity. Qed.
Lemma trim_u32 : forall x, trim x = u32 x.
Proof. intros. unfold trim. rewrite allones, Z.land_ones by lia. reflexivity. Qed.
Lemma u32_u64 : forall x, u32 (u64 x) = u32 x.
Proof.
  intros. unfold u32, u64. change two64 with (two32 * two32). symmetry. apply Znumtheory.Zmod_div_mod; [reflexivity|reflexivity|].
  exists two32. reflexivity.
Qed.
Lemma s64_word : forall x, 0 <= x < two32 -> s64 x = x.
Proof. intros. apply s64_id. unfold_consts. lia. Qed.
Lemma s64_u32 : forall x, s64 (u32 x) = u32 x.
Proof. intros. apply s64_word. apply u32_range. Qed.
Lemma is_word_u32 : forall x f, (forall i, 0 <= i < 32 -> Z.testbit x i = f i) -> is_word (u32 x) f.
Proof.
  intros x f H. split; [apply u32_range|]. intros i Hi. rewrite ub32 by lia. destruct (Z.ltb_spec i 32); [|lia]. apply H. assumption.
Qed.

Lemma fold_land : forall l r i, 0 <= i < 64 -> Z.testbit (fold_left (fun r x => Z.land r (u64 x)) l r) i =
  Z.testbit r i && forallb (fun x => Z.testbit x i) l.
Proof.
  induction l as [|x l IH]; intros r i Hi; cbn [fold_left forallb].
  - rewrite andb_true_r. reflexivity.
  - rewrite IH by assumption. rewrite Z.land_spec, ub64 by lia. destruct (Z.ltb_spec i 64); [|lia]. cbn [andb].
    rewrite andb_assoc. reflexivity.
Qed.
Lemma fold_lor : forall l r i, 0 <= i < 64 -> Z.testbit (fold_left (fun r x => Z.lor r (u64 x)) l r) i =
  Z.testbit r i || existsb (fun x => Z.testbit x i) l.
Proof.
  induction l as [|x l IH]; intros r i Hi; cbn [fold_left existsb].
  - rewrite orb_false_r. reflexivity.
  - rewrite IH by assumption. rewrite Z.lor_spec, ub64 by lia. destruct (Z.ltb_spec i 64); [|lia]. cbn [andb].
    rewrite orb_assoc. reflexivity.
Qed.
Lemma fold_lxor : forall l r i, 0 <= i < 64 -> Z.testbit (fold_left (fun r x => Z.lxor r (u64 x)) l r) i =
  xorb (Z.testbit r i) (parity l i).
Proof.
  induction l as [|x l IH]; intros r i Hi; cbn [fold_left parity fold_right].
  - rewrite xorb_false_r. reflexivity.
  - rewrite IH by assumption. rewrite Z.lxor_spec, ub64 by lia. destruct (Z.ltb_spec i 64); [|lia]. cbn [andb].
    rewrite xorb_assoc. reflexivity.
Qed.

Lemma unot_bits : forall x i, 0 <= i < 64 -> Z.testbit (unot x) i = negb (Z.testbit x i).
Proof. intros. unfold unot. rewrite ub64 by lia. destruct (Z.ltb_spec i 64); [|lia]. apply Z.lnot_spec. lia. Qed.

Theorem band_ok : forall l, is_word (b_and l) (fun i => forallb (fun x => Z.testbit x i) l).
Proof.
  intros l. unfold b_and, andaux. rewrite trim_u32, s64_u32. apply is_word_u32. intros i Hi.
  rewrite fold_land, unot_bits, Z.bits_0 by lia. reflexivity.
Qed.
Theorem btest_ok : forall l, b_test l = negb (b_and l =? 0).
Proof. intros. unfold b_test, b_and, andaux. rewrite trim_u32, s64_u32. reflexivity. Qed.
Theorem bor_ok : forall l, is_word (b_or l) (fun i => existsb (fun x => Z.testbit x i) l).
Proof.
  intros l. unfold b_or. rewrite trim_u32, s64_u32. apply is_word_u32. intros i Hi.
  rewrite fold_lor, Z.bits_0 by lia. reflexivity.
Qed.
Theorem bxor_ok : forall l, is_word (b_xor l) (parity l).
Proof.
  intros l. unfold b_xor. rewrite trim_u32, s64_u32. apply is_word_u32. intros i Hi.
  rewrite fold_lxor, Z.bits_0 by lia. destruct (parity l i); reflexivity.
Qed.
Theorem bnot_ok : forall x, is_word (b_not x) (fun i => negb (Z.testbit x i)).
Proof.
  intros x. unfold b_not. rewrite trim_u32, s64_u32. apply is_word_u32. intros i Hi.
  rewrite unot_bits, ub64 by lia. destruct (Z.ltb_spec i 64); [|lia]. reflexivity.
Qed.

(* left shift by d (right shift when d is negative) of the 32-bit word x *)
Definition shifted (x d i : Z) : bool := bitof x (i - d).

Lemma bitof_in : forall x i, 0 <= i < 32 -> bitof x i = Z.testbit x i.
Proof. intros. unfold bitof. destruct (Z.leb_spec 0 i); [|lia]. destruct (Z.ltb_spec i 32); [|lia]. reflexivity. Qed.
Lemma bitof_out : forall x i, i < 0 \/ 32 <= i -> bitof x i = false.
Proof. intros x i H. unfold bitof. destruct (Z.leb_spec 0 i); destruct (Z.ltb_spec i 32); cbn [andb]; try reflexivity; lia. Qed.

Lemma bshift_ok : forall x d, minint < d <= maxint -> exists r, b_shift (u64 x) d = Ok r /\ is_word r (shifted x d).
Proof.
  intros x d Hd. unfold b_shift. destruct (Z.ltb_spec d 0).
  - rewrite c_signed_ok by (unfold_consts; lia). cbn [bind]. eexists. split; [reflexivity|].
    rewrite trim_u32, u32_u64. unfold NBITS. destruct (Z.leb_spec 32 (- d)).
    + rewrite s64_word by (unfold_consts; lia). split; [unfold_consts; lia|]. intros i Hi. rewrite Z.bits_0. symmetry. apply bitof_out. lia.
    + assert (R : 0 <= Z.shiftr (u32 x) (- d) < two32).
      { rewrite Z.shiftr_div_pow2 by lia. pose proof (u32_range x) as [R1 R2].
        assert (0 < 2^(-d)) by (apply Z.pow_pos_nonneg; lia). split; [apply Z.div_pos; lia|].
        apply Z.div_lt_upper_bound; [lia|]. nia. }
      rewrite s64_word by assumption. split; [assumption|]. intros i Hi. rewrite Z.shiftr_spec, ub32 by lia. unfold shifted, bitof.
      replace (i + - d) with (i - d) by lia. destruct (Z.leb_spec 0 (i - d)); [|lia]. reflexivity.
  - eexists. split; [reflexivity|]. rewrite trim_u32, s64_u32. apply is_word_u32. intros i Hi. unfold NBITS.
    destruct (Z.leb_spec 32 d).
    + rewrite Z.bits_0. symmetry. apply bitof_out. lia.
    + rewrite ub64, Z.shiftl_spec by lia. destruct (Z.ltb_spec i 64); [|lia]. cbn [andb]. unfold shifted.
      destruct (Z.lt_ge_cases (i - d) 0).
      * rewrite Z.testbit_neg_r, bitof_out by lia. reflexivity.
      * rewrite bitof_in, ub64 by lia. destruct (Z.ltb_spec (i - d) 64); [|lia]. reflexivity.
Qed.

Theorem lshift_ok : forall x d, minint < d <= maxint -> exists r, b_lshift x d = Ok r /\ is_word r (fun i => bitof x (i - d)).
Proof. intros. apply bshift_ok. assumption. Qed.
Theorem rshift_ok : forall x d, minint < d <= maxint -> exists r, b_rshift x d = Ok r /\ is_word r (fun i => bitof x (i + d)).
Proof.
  intros x d Hd. unfold b_rshift. rewrite c_signed_ok by (unfold_consts; lia). cbn [bind].
  destruct (bshift_ok x (- d)) as (r & E & [W1 W2]); [unfold_consts; lia|]. exists r. split; [assumption|].
  split; [assumption|]. intros i Hi. rewrite W2 by assumption. unfold shifted. f_equal. lia.
Qed.
Theorem arshift_ok : forall x d, minint < d <= maxint -> exists r, b_arshift x d = Ok r /\
  is_word r (fun i => if 32 <=? i + d then if 0 <=? d then Z.testbit x 31 else false else bitof x (i + d)).
Proof.
  intros x d Hd. unfold b_arshift.
  assert (B : (Z.land (u64 x) (Z.shiftl 1 (NBITS - 1)) =? 0) = negb (Z.testbit x 31)).
  { change (Z.shiftl 1 (NBITS - 1)) with (2^31).
    assert (L : Z.land (u64 x) (2^31) = if Z.testbit x 31 then 2^31 else 0).
    { apply Z.bits_inj'. intros j Hj. rewrite Z.land_spec. destruct (Z.eq_dec j 31).
      - subst j. rewrite Z.pow2_bits_true by lia. rewrite ub64 by lia. cbn [Z.ltb Z.compare andb].
        change (31 <? 64) with true. cbn [andb]. rewrite andb_true_r. destruct (Z.testbit x 31); reflexivity.
      - rewrite Z.pow2_bits_false by lia. rewrite andb_false_r. destruct (Z.testbit x 31); [rewrite Z.pow2_bits_false by lia|rewrite Z.bits_0]; reflexivity. }
    rewrite L. destruct (Z.testbit x 31); reflexivity. }
  rewrite B. destruct (Z.ltb_spec d 0).
  - cbn [orb]. destruct (rshift_ok x d Hd) as (r & E & [W1 W2]). unfold b_rshift in E. exists r. split; [exact E|].
    split; [assumption|]. intros i Hi. rewrite W2 by assumption. destruct (Z.leb_spec 0 d); [lia|].
    destruct (Z.leb_spec 32 (i + d)); [lia|]. reflexivity.
  - destruct (Z.testbit x 31) eqn:T; cbn [negb orb].
    + eexists. split; [reflexivity|]. destruct (Z.leb_spec 0 d); [|lia]. unfold NBITS.
      destruct (Z.leb_spec 32 d).
      * rewrite s64_word by (vm_compute; intuition discriminate). split; [vm_compute; intuition discriminate|].
        intros i Hi. rewrite allones, Z.ones_spec_low by lia. destruct (Z.leb_spec 32 (i + d)); [reflexivity|lia].
      * rewrite trim_u32, s64_u32. apply is_word_u32. intros i Hi. rewrite Z.lor_spec, unot_bits, !Z.shiftr_spec, ub64 by lia.
        change (trim (unot 0)) with (Z.ones 32). rewrite Z.testbit_ones_nonneg by lia.
        destruct (Z.ltb_spec (i + d) 64); [|lia]. cbn [andb]. destruct (Z.leb_spec 32 (i + d)).
        -- destruct (Z.ltb_spec (i + d) 32); [lia|]. cbn [negb]. apply orb_true_r.
        -- destruct (Z.ltb_spec (i + d) 32); [|lia]. cbn [negb]. rewrite orb_false_r, bitof_in by lia. reflexivity.
    + destruct (rshift_ok x d Hd) as (r & E & [W1 W2]). unfold b_rshift in E. exists r. split; [exact E|].
      split; [assumption|]. intros i Hi. rewrite W2 by assumption. destruct (Z.leb_spec 0 d); [|lia].
      destruct (Z.leb_spec 32 (i + d)); [apply bitof_out; lia|reflexivity].
Qed.

Lemma rot_ok : forall x d, is_word (b_rot x d) (fun i => Z.testbit x ((i - d) mod 32)).
Proof.
  intros x d. unfold b_rot. change (NBITS - 1) with (Z.ones 5). rewrite Z.land_ones by lia.
  change (2^5) with 32. set (k := d mod 32). assert (K : 0 <= k < 32) by (apply Z.mod_pos_bound; lia).
  rewrite !trim_u32, u32_u64, s64_u32. apply is_word_u32. intros i Hi.
  assert (M : (i - d) mod 32 = (i - k) mod 32) by (unfold k; rewrite Zminus_mod_idemp_r; reflexivity). rewrite M.
  destruct (Z.eqb_spec k 0) as [E|E].
  - rewrite E, Z.sub_0_r, Z.mod_small by lia. rewrite ub32 by lia. destruct (Z.ltb_spec i 32); [reflexivity|lia].
  - rewrite Z.lor_spec, ub64, Z.shiftl_spec, Z.shiftr_spec by lia. destruct (Z.ltb_spec i 64); [|lia]. cbn [andb].
    unfold NBITS. destruct (Z.lt_ge_cases i k).
    + rewrite Z.testbit_neg_r by lia. cbn [orb].
      replace ((i - k) mod 32) with (i + (32 - k)) by (apply Z.mod_unique with (q := -1); lia).
      rewrite ub32 by lia. destruct (Z.ltb_spec (i + (32 - k)) 32); [reflexivity|lia].
    + rewrite (Z.mod_small (i - k)) by lia. rewrite !ub32 by lia.
      destruct (Z.ltb_spec (i - k) 32); [|lia]. destruct (Z.ltb_spec (i + (32 - k)) 32); [lia|]. cbn [andb]. apply orb_false_r.
Qed.
Theorem lrot_ok : forall x d, exists r, b_lrot x d = Ok r /\ is_word r (fun i => Z.testbit x ((i - d) mod 32)).
Proof. intros. eexists. split; [reflexivity|]. apply rot_ok. Qed.
Theorem rrot_ok : forall x d, minint < d <= maxint -> exists r, b_rrot x d = Ok r /\ is_word r (fun i => Z.testbit x ((i + d) mod 32)).
Proof.
  intros x d Hd. unfold b_rrot. rewrite c_signed_ok by (unfold_consts; lia). cbn [bind]. eexists. split; [reflexivity|].
  pose proof (rot_ok x (- d)) as [W1 W2]. split; [assumption|]. intros i Hi. rewrite W2 by assumption. do 2 f_equal. lia.
Qed.

(* ---- fields ---- *)
Lemma mask_bits : forall w i, 1 <= w <= 32 -> 0 <= i < 64 -> Z.testbit (mask w) i = (i <? w) || (w + 32 <=? i).
Proof.
  intros w i Hw Hi. unfold mask. rewrite unot_bits, ub64, Z.shiftl_spec by lia.
  destruct (Z.ltb_spec i 64); [|lia]. cbn [andb]. destruct (Z.lt_ge_cases (i - (w - 1)) 0).
  - rewrite Z.testbit_neg_r by lia. destruct (Z.ltb_spec i w); [reflexivity|lia].
  - rewrite ub64, Z.shiftl_spec, allones by lia. destruct (Z.ltb_spec (i - (w - 1)) 64); [|lia]. cbn [andb].
    destruct (Z.lt_ge_cases (i - (w - 1) - 1) 0).
    + rewrite Z.testbit_neg_r by lia. destruct (Z.ltb_spec i w); [reflexivity|lia].
    + rewrite Z.testbit_ones_nonneg by lia. destruct (Z.ltb_spec (i - (w - 1) - 1) 32); destruct (Z.ltb_spec i w); destruct (Z.leb_spec (w + 32) i); try reflexivity; lia.
Qed.

Lemma fieldargs_ok : forall f w, 0 <= f -> 1 <= w -> f + w <= 32 -> fieldargs f w = Ok (f, w).
Proof.
  intros f w Hf Hw Hs. unfold fieldargs. destruct (Z.ltb_spec f 0); [lia|]. destruct (Z.leb_spec w 0); [lia|].
  rewrite c_signed_ok by (unfold_consts; lia). cbn [bind]. unfold NBITS. destruct (Z.ltb_spec 32 (f + w)); [lia|reflexivity].
Qed.
Lemma fieldargs_bad : forall f w, is_s64 f -> is_s64 w -> f + w <= maxint -> ~ (0 <= f /\ 1 <= w /\ f + w <= 32) ->
  fieldargs f w = Err EArg.
Proof.
  intros f w Sf Sw Hs N. unfold fieldargs. destruct (Z.ltb_spec f 0); [reflexivity|]. destruct (Z.leb_spec w 0); [reflexivity|].
  rewrite c_signed_ok by (unfold_consts; lia). cbn [bind]. unfold NBITS. destruct (Z.ltb_spec 32 (f + w)); [reflexivity|lia].
Qed.

Theorem extract_ok : forall x f w, 0 <= f -> 1 <= w -> f + w <= 32 -> exists r, b_extract x f w = Ok r /\
  is_word r (fun i => (i <? w) && Z.testbit x (i + f)).
Proof.
  intros x f w Hf Hw Hs. unfold b_extract. rewrite fieldargs_ok by assumption. cbn [bind]. eexists. split; [reflexivity|].
  rewrite trim_u32, u32_u64.
  assert (R : 0 <= Z.land (Z.shiftr (u32 x) f) (mask w) < two32).
  { assert (R0 : 0 <= Z.shiftr (u32 x) f < two32).
    { rewrite Z.shiftr_div_pow2 by lia. pose proof (u32_range x) as [R1 R2].
      assert (0 < 2^f) by (apply Z.pow_pos_nonneg; lia). split; [apply Z.div_pos; lia|].
      apply Z.div_lt_upper_bound; [lia|]. nia. }
    split; [apply Z.land_nonneg; lia|]. destruct (Z.eq_dec (Z.land (Z.shiftr (u32 x) f) (mask w)) 0); [unfold_consts; lia|].
    apply Z.log2_lt_cancel. eapply Z.le_lt_trans; [apply Z.log2_land; [lia|]|].
    - unfold mask, unot. apply u64_range.
    - apply Z.le_lt_trans with (m := Z.log2 (Z.shiftr (u32 x) f)); [lia|]. change (Z.log2 two32) with 32.
      destruct (Z.eq_dec (Z.shiftr (u32 x) f) 0) as [E0|]; [rewrite E0; reflexivity|].
      apply Z.log2_lt_pow2; [lia|]. exact (proj2 R0). }
  rewrite s64_word by assumption. split; [assumption|]. intros i Hi.
  rewrite Z.land_spec, Z.shiftr_spec, ub32, mask_bits by lia.
  destruct (Z.ltb_spec i w); cbn [orb andb].
  - destruct (Z.ltb_spec (i + f) 32); [|lia]. rewrite andb_true_r. reflexivity.
  - destruct (Z.leb_spec (w + 32) i); [lia|]. apply andb_false_r.
Qed.

Lemma word_bound : forall x, 0 <= x -> (forall i, 32 <= i -> Z.testbit x i = false) -> x < two32.
Proof.
  intros x H0 H. destruct (Z.lt_ge_cases x two32); [assumption|].
  exfalso. assert (L : 32 <= Z.log2 x) by (apply Z.log2_le_pow2; [unfold_consts; lia|]; exact H1).
  pose proof (Z.bit_log2 x ltac:(unfold_consts; lia)) as B. rewrite H in B by lia. discriminate.
Qed.

Theorem replace_ok : forall x v f w, 0 <= f -> 1 <= w -> f + w <= 32 -> exists r, b_replace x v f w = Ok r /\
  is_word r (fun i => if (f <=? i) && (i <? f + w) then Z.testbit v (i - f) else Z.testbit x i).
Proof.
  intros x v f w Hf Hw Hs. unfold b_replace. rewrite fieldargs_ok by assumption. cbn [bind]. eexists. split; [reflexivity|].
  rewrite !trim_u32, !u32_u64.
  set (r := Z.lor (Z.land (u32 x) (unot (u64 (Z.shiftl (mask w) f)))) (u64 (Z.shiftl (Z.land (u32 v) (mask w)) f))).
  assert (MN : 0 <= mask w) by (apply u64_range).
  assert (B : forall i, 0 <= i -> Z.testbit r i = (i <? 32) && if (f <=? i) && (i <? f + w) then Z.testbit v (i - f) else Z.testbit x i).
  { intros i Hi. unfold r. rewrite Z.lor_spec, Z.land_spec, ub32 by lia.
    destruct (Z.ltb_spec i 32); cbn [andb].
    - rewrite unot_bits, !ub64, !Z.shiftl_spec by lia. destruct (Z.ltb_spec i 64); [|lia]. cbn [andb].
      destruct (Z.leb_spec f i); cbn [andb].
      + rewrite Z.land_spec, mask_bits, ub32 by lia. destruct (Z.ltb_spec (i - f) 32); [|lia]. cbn [andb].
        destruct (Z.leb_spec (w + 32) (i - f)); [lia|]. destruct (Z.ltb_spec (i - f) w); destruct (Z.ltb_spec i (f + w)); try lia; cbn [orb negb andb].
        * rewrite andb_false_r, andb_true_r. reflexivity.
        * rewrite andb_true_r, andb_false_r, orb_false_r. reflexivity.
      + rewrite !(fun a => Z.testbit_neg_r a (i - f)) by lia. cbn [negb]. rewrite andb_true_r, orb_false_r. reflexivity.
    - rewrite ub64, Z.shiftl_spec by lia. destruct (Z.ltb_spec i 64); cbn [andb orb]; [|reflexivity].
      rewrite Z.land_spec, ub32 by lia. destruct (Z.ltb_spec (i - f) 32); cbn [andb]; [|reflexivity].
      rewrite mask_bits by lia. destruct (Z.ltb_spec (i - f) w); [lia|]. destruct (Z.leb_spec (w + 32) (i - f)); [lia|].
      apply andb_false_r. }
  assert (R0 : 0 <= r).
  { unfold r. apply Z.lor_nonneg. split; [|apply u64_range]. apply Z.land_nonneg. left. apply u32_range. }
  assert (R1 : r < two32).
  { apply word_bound; [assumption|]. intros i Hi. rewrite B by lia. destruct (Z.ltb_spec i 32); [lia|reflexivity]. }
  rewrite s64_word by lia. split; [lia|]. intros i Hi. rewrite B by lia. destruct (Z.ltb_spec i 32); [reflexivity|lia].
Qed.

Theorem field_bad : forall x v f w, is_s64 f -> is_s64 w -> f + w <= maxint -> ~ (0 <= f /\ 1 <= w /\ f + w <= 32) ->
  b_extract x f w = Err EArg /\ b_replace x v f w = Err EArg.
Proof. intros. unfold b_extract, b_replace. rewrite fieldargs_bad by assumption. split; reflexivity. Qed.

(* ---- bit.c ---- *)

Lemma s32_bits : forall x i, 0 <= i < 32 -> Z.testbit (s32 x) i = Z.testbit x i.
Proof.
  intros x i Hi. destruct (s32_eqm x) as [k E]. rewrite E. change two32 with (2^32).
  rewrite <- (Z.mod_pow2_bits_low (x + k * 2^32) 32 i) by lia. rewrite Z.mod_add by lia. apply Z.mod_pow2_bits_low. lia.
Qed.
Lemma is_sword_s32 : forall x f, (forall i, 0 <= i < 32 -> Z.testbit x i = f i) -> is_sword (s32 x) f.
Proof. intros x f H. split; [apply s32_range|]. intros i Hi. rewrite s32_bits by assumption. auto. Qed.

Lemma barg_bits : forall x i, 0 <= i < 32 -> Z.testbit (barg x) i = Z.testbit x i.
Proof. intros. unfold barg. rewrite ub32 by lia. destruct (Z.ltb_spec i 32); [reflexivity|lia]. Qed.

Theorem tobit_ok : forall x, is_sword (bit_tobit x) (Z.testbit x).
Proof. intros. apply is_sword_s32. intros. apply barg_bits. assumption. Qed.
Theorem bnot_s_ok : forall x, is_sword (bit_bnot x) (fun i => negb (Z.testbit x i)).
Proof.
  intros. apply is_sword_s32. intros i Hi. rewrite ub32 by lia. destruct (Z.ltb_spec i 32); [|lia]. cbn [andb].
  rewrite Z.lnot_spec, barg_bits by lia. reflexivity.
Qed.

Lemma fold_bit : forall op g, (forall a b i, 0 <= i -> Z.testbit (op a b) i = g (Z.testbit a i) (Z.testbit b i)) ->
  forall l r i, 0 <= i < 32 -> Z.testbit (fold_left (fun b y => op b (barg y)) l r) i =
  fold_left g (map (fun y => Z.testbit y i) l) (Z.testbit r i).
Proof.
  intros op g H. induction l as [|y l IH]; intros r i Hi; cbn [fold_left map]; [reflexivity|].
  rewrite IH by assumption. rewrite H, barg_bits by lia. reflexivity.
Qed.

Lemma fold_and_rev : forall l b, fold_left andb (rev l) b = b && forallb (fun x => x) l.
Proof.
  induction l as [|x l IH]; intros b; cbn [rev forallb]; [rewrite andb_true_r; reflexivity|].
  rewrite fold_left_app. cbn [fold_left]. rewrite IH. destruct b, x, (forallb (fun x => x) l); reflexivity.
Qed.
Lemma fold_or_rev : forall l b, fold_left orb (rev l) b = b || existsb (fun x => x) l.
Proof.
  induction l as [|x l IH]; intros b; cbn [rev existsb]; [rewrite orb_false_r; reflexivity|].
  rewrite fold_left_app. cbn [fold_left]. rewrite IH. destruct b, x, (existsb (fun x => x) l); reflexivity.
Qed.
Lemma fold_xor_rev : forall l b, fold_left xorb (rev l) b = xorb b (fold_right xorb false l).
Proof.
  induction l as [|x l IH]; intros b; cbn [rev fold_right]; [rewrite xorb_false_r; reflexivity|].
  rewrite fold_left_app. cbn [fold_left]. rewrite IH. destruct b, x, (fold_right xorb false l); reflexivity.
Qed.
Lemma forallb_map : forall (l : list Z) i, forallb (fun x => x) (map (fun y => Z.testbit y i) l) = forallb (fun y => Z.testbit y i) l.
Proof. induction l; intros; cbn [map forallb]; [reflexivity|]. rewrite IHl. reflexivity. Qed.
Lemma existsb_map : forall (l : list Z) i, existsb (fun x => x) (map (fun y => Z.testbit y i) l) = existsb (fun y => Z.testbit y i) l.
Proof. induction l; intros; cbn [map existsb]; [reflexivity|]. rewrite IHl. reflexivity. Qed.
Lemma parity_map : forall (l : list Z) i, fold_right xorb false (map (fun y => Z.testbit y i) l) = parity l i.
Proof. induction l; intros; cbn [map fold_right parity]; [reflexivity|]. rewrite IHl. reflexivity. Qed.

Theorem bit_band_ok : forall x l, is_sword (bit_band x l) (fun i => forallb (fun y => Z.testbit y i) (x :: l)).
Proof.
  intros. apply is_sword_s32. intros i Hi. rewrite (fold_bit Z.land andb) by (auto; intros; apply Z.land_spec).
  rewrite map_rev, fold_and_rev, barg_bits, forallb_map by assumption. reflexivity.
Qed.
Theorem bit_bor_ok : forall x l, is_sword (bit_bor x l) (fun i => existsb (fun y => Z.testbit y i) (x :: l)).
Proof.
  intros. apply is_sword_s32. intros i Hi. rewrite (fold_bit Z.lor orb) by (auto; intros; apply Z.lor_spec).
  rewrite map_rev, fold_or_rev, barg_bits, existsb_map by assumption. reflexivity.
Qed.
Theorem bit_bxor_ok : forall x l, is_sword (bit_bxor x l) (parity (x :: l)).
Proof.
  intros. apply is_sword_s32. intros i Hi. rewrite (fold_bit Z.lxor xorb) by (auto; intros; apply Z.lxor_spec).
  rewrite map_rev, fold_xor_rev, barg_bits, parity_map by assumption. reflexivity.
Qed.

Lemma count_mod : forall n, count n = n mod 32.
Proof.
  intros. unfold count, barg, u32. change 31 with (Z.ones 5). rewrite Z.land_ones by lia. change (2^5) with 32.
  change two32 with (32 * 134217728). symmetry. apply Znumtheory.Zmod_div_mod; [reflexivity|reflexivity|]. exists 134217728. reflexivity.
Qed.

Theorem bit_lshift_ok : forall x n, exists r, bit_lshift x n = Ok r /\ is_sword r (fun i => bitof x (i - n mod 32)).
Proof.
  intros x n. unfold bit_lshift, shl32. rewrite count_mod. assert (K : 0 <= n mod 32 < 32) by (apply Z.mod_pos_bound; lia).
  destruct (Z.ltb_spec (n mod 32) 0); [lia|]. destruct (Z.leb_spec 32 (n mod 32)); [lia|]. cbn [orb bind].
  eexists. split; [reflexivity|]. apply is_sword_s32. intros i Hi. rewrite ub32, Z.shiftl_spec by lia.
  destruct (Z.ltb_spec i 32); [|lia]. cbn [andb]. destruct (Z.lt_ge_cases (i - n mod 32) 0).
  - rewrite Z.testbit_neg_r, bitof_out by lia. reflexivity.
  - rewrite barg_bits, bitof_in by lia. reflexivity.
Qed.
Theorem bit_rshift_ok : forall x n, exists r, bit_rshift x n = Ok r /\ is_sword r (fun i => bitof x (i + n mod 32)).
Proof.
  intros x n. unfold bit_rshift, shr32. rewrite count_mod. assert (K : 0 <= n mod 32 < 32) by (apply Z.mod_pos_bound; lia).
  destruct (Z.ltb_spec (n mod 32) 0); [lia|]. destruct (Z.leb_spec 32 (n mod 32)); [lia|]. cbn [orb bind].
  eexists. split; [reflexivity|]. apply is_sword_s32. intros i Hi. rewrite Z.shiftr_spec by lia. unfold barg. rewrite ub32 by lia.
  unfold bitof. destruct (Z.leb_spec 0 (i + n mod 32)); [reflexivity|lia].
Qed.
Theorem bit_arshift_ok : forall x n, exists r, bit_arshift x n = Ok r /\
  is_sword r (fun i => if 32 <=? i + n mod 32 then Z.testbit x 31 else Z.testbit x (i + n mod 32)).
Proof.
  intros x n. unfold bit_arshift, shr32. rewrite count_mod. assert (K : 0 <= n mod 32 < 32) by (apply Z.mod_pos_bound; lia).
  destruct (Z.ltb_spec (n mod 32) 0); [lia|]. destruct (Z.leb_spec 32 (n mod 32)); [lia|]. cbn [orb bind].
  eexists. split; [reflexivity|]. apply is_sword_s32. intros i Hi. rewrite Z.shiftr_spec by lia.
  destruct (Z.leb_spec 32 (i + n mod 32)).
  - rewrite <- (barg_bits x 31), <- (s32_bits (barg x) 31) by lia. set (y := s32 (barg x)).
    assert (Y : - 2^31 <= y < 2^31) by apply s32_range.
    destruct (Z.lt_ge_cases y 0).
    + assert (N : forall j, 31 <= j -> Z.testbit y j = true).
      { intros j Hj. rewrite <- (Z.lnot_involutive y) at 1. rewrite Z.lnot_spec by lia.
        rewrite (testbit_small (Z.lnot y) 31) by (unfold Z.lnot; lia). reflexivity. }
      rewrite !N by lia. reflexivity.
    + rewrite !(testbit_small y 31) by lia. reflexivity.
  - rewrite s32_bits, barg_bits by lia. reflexivity.
Qed.

Lemma rol_gen : forall x k i, 0 < k < 32 -> 0 <= i < 32 ->
  Z.testbit (Z.lor (u32 (Z.shiftl (barg x) k)) (Z.shiftr (barg x) (32 - k))) i = Z.testbit x ((i - k) mod 32).
Proof.
  intros x k i Hk Hi. rewrite Z.lor_spec, ub32, Z.shiftl_spec, Z.shiftr_spec by lia.
  destruct (Z.ltb_spec i 32); [|lia]. cbn [andb]. unfold barg. destruct (Z.lt_ge_cases i k).
  - rewrite Z.testbit_neg_r by lia. cbn [orb].
    replace ((i - k) mod 32) with (i + (32 - k)) by (apply Z.mod_unique with (q := -1); lia).
    rewrite ub32 by lia. destruct (Z.ltb_spec (i + (32 - k)) 32); [reflexivity|lia].
  - rewrite (Z.mod_small (i - k)) by lia. rewrite !ub32 by lia.
    destruct (Z.ltb_spec (i - k) 32); [|lia]. destruct (Z.ltb_spec (i + (32 - k)) 32); [lia|]. cbn [andb]. apply orb_false_r.
Qed.
Theorem bit_rol_ok : forall x n, n mod 32 <> 0 -> exists r, bit_rol x n = Ok r /\ is_sword r (fun i => Z.testbit x ((i - n) mod 32)).
Proof.
  intros x n N. unfold bit_rol, shl32, shr32. rewrite count_mod. assert (K : 0 <= n mod 32 < 32) by (apply Z.mod_pos_bound; lia).
  destruct (Z.ltb_spec (n mod 32) 0); [lia|]. destruct (Z.leb_spec 32 (n mod 32)); [lia|]. cbn [orb bind].
  destruct (Z.ltb_spec (32 - n mod 32) 0); [lia|]. destruct (Z.leb_spec 32 (32 - n mod 32)); [lia|]. cbn [orb bind].
  eexists. split; [reflexivity|]. apply is_sword_s32. intros i Hi. rewrite rol_gen by lia. rewrite Zminus_mod_idemp_r. reflexivity.
Qed.
Theorem bit_ror_ok : forall x n, n mod 32 <> 0 -> exists r, bit_ror x n = Ok r /\ is_sword r (fun i => Z.testbit x ((i + n) mod 32)).
Proof.
  intros x n N. unfold bit_ror, shl32, shr32. rewrite count_mod. assert (K : 0 <= n mod 32 < 32) by (apply Z.mod_pos_bound; lia).
  destruct (Z.ltb_spec (n mod 32) 0); [lia|]. destruct (Z.leb_spec 32 (n mod 32)); [lia|]. cbn [orb bind].
  destruct (Z.ltb_spec (32 - n mod 32) 0); [lia|]. destruct (Z.leb_spec 32 (32 - n mod 32)); [lia|]. cbn [orb bind].
  eexists. split; [reflexivity|]. apply is_sword_s32. intros i Hi.
  replace (n mod 32) with (32 - (32 - n mod 32)) at 2 by lia. rewrite rol_gen by lia. f_equal.
  replace (i - (32 - n mod 32)) with (i + n mod 32 + (-1) * 32) by lia. rewrite Z.mod_add by lia. apply Zplus_mod_idemp_r.
Qed.
Theorem rot_by_zero : forall x n, n mod 32 = 0 -> bit_rol x n = UB /\ bit_ror x n = UB.
Proof.
  intros x n E. unfold bit_rol, bit_ror, shl32, shr32. rewrite !count_mod, E. split; reflexivity.
Qed.

Theorem bswap_ok : forall x, is_sword (bit_bswap x) (fun i => Z.testbit x (8 * (3 - i / 8) + i mod 8)).
Proof.
  intros x. apply is_sword_s32. intros i Hi.
  rewrite !Z.lor_spec, !ub32, !Z.shiftr_spec, !Z.shiftl_spec, !Z.land_spec, !Z.shiftr_spec by lia.
  destruct (Z.ltb_spec i 32); [|lia]. cbn [andb].
  change 65280 with (Z.shiftl (Z.ones 8) 8).
  assert (D : i = 8 * (i / 8) + i mod 8) by (apply Z.div_mod; lia).
  assert (M : 0 <= i mod 8 < 8) by (apply Z.mod_pos_bound; lia).
  set (q := i / 8) in *. set (r := i mod 8) in *. assert (Q : 0 <= q < 4) by lia.
  unfold barg.
  assert (TO : forall j, Z.testbit (Z.ones 8) j = (0 <=? j) && (j <? 8)).
  { intros j. destruct (Z.leb_spec 0 j); [apply Z.testbit_ones_nonneg; lia|apply Z.testbit_neg_r; lia]. }
  assert (SH : forall j, Z.testbit (Z.shiftl (Z.ones 8) 8) j = (0 <=? j - 8) && (j - 8 <? 8)).
  { intros j. destruct (Z.leb_spec 0 j).
    - rewrite Z.shiftl_spec by lia. apply TO.
    - rewrite Z.testbit_neg_r by lia. destruct (Z.leb_spec 0 (j - 8)); [lia|reflexivity]. }
  rewrite ?SH, ?TO.
  assert (UG : forall j, Z.testbit (u32 x) j = (0 <=? j) && (j <? 32) && Z.testbit x j).
  { intros j. destruct (Z.leb_spec 0 j); [apply ub32; lia|apply Z.testbit_neg_r; lia]. }
  rewrite !UG.
  assert (C : q = 0 \/ q = 1 \/ q = 2 \/ q = 3) by lia.
  assert (LB : forall a b, a <= b -> (a <=? b) = true) by (intros; apply Z.leb_le; assumption).
  assert (LBf : forall a b, b < a -> (a <=? b) = false) by (intros; apply Z.leb_gt; assumption).
  assert (LT : forall a b, a < b -> (a <? b) = true) by (intros; apply Z.ltb_lt; assumption).
  assert (LTf : forall a b, b <= a -> (a <? b) = false) by (intros; apply Z.ltb_ge; assumption).
  destruct C as [E|[E|[E|E]]]; rewrite E in *.
  - rewrite (LB 0 (i + 24)), (LT (i + 24) 32), (LBf 0 (i - 8)), (LBf 0 (i - 24)) by lia.
    rewrite (LBf 0 (i - 8 - 8)) by lia. rewrite ?andb_false_l, ?andb_false_r, ?orb_false_r. cbn [andb].
    replace (8 * (3 - 0) + r) with (i + 24) by lia. reflexivity.
  - rewrite (LTf (i + 24) 32), (LBf 0 (i - 24)), (LB 0 (i + 8)), (LT (i + 8) 32), (LB 0 (i - 8)), (LT (i - 8) 8) by lia.
    rewrite (LBf 0 (i - 8 - 8)) by lia. rewrite ?andb_false_l, ?andb_false_r, ?orb_false_r, ?andb_true_r. cbn [andb orb].
    replace (8 * (3 - 1) + r) with (i + 8) by lia. reflexivity.
  - rewrite (LTf (i + 24) 32), (LBf 0 (i - 24)), (LTf (i - 8) 8) by lia.
    rewrite (LB 0 (i - 8 - 8)), (LT (i - 8 - 8) 8), (LB 0 (i - 8)), (LT (i - 8) 32) by lia.
    rewrite ?andb_false_l, ?andb_false_r, ?orb_false_r, ?andb_true_r. cbn [andb orb].
    replace (8 * (3 - 2) + r) with (i - 8) by lia. reflexivity.
  - rewrite (LTf (i + 24) 32), (LB 0 (i - 24)), (LTf (i - 8) 8), (LT (i - 24) 32), (LTf (i - 8 - 8) 8) by lia.
    rewrite ?andb_false_l, ?andb_false_r, ?orb_false_r, ?andb_true_r. cbn [andb orb].
    replace (8 * (3 - 3) + r) with (i - 24) by lia. reflexivity.
Qed.

(* ---- tohex ---- *)

Lemma hexdigit_val : forall u d, 0 <= d < 16 -> hexval (hexdigit u d) = d /\ is_hex u (hexdigit u d).
Proof.
  intros u d Hd. unfold hexdigit, hexval, is_hex. destruct (Z.ltb_spec d 10).
  - destruct (Z.ltb_spec (48 + d) 58); [|lia]. split; lia.
  - destruct u.
    + destruct (Z.ltb_spec (55 + d) 58); [lia|]. destruct (Z.ltb_spec (55 + d) 71); [|lia]. split; lia.
    + destruct (Z.ltb_spec (87 + d) 58); [lia|]. destruct (Z.ltb_spec (87 + d) 71); [lia|]. split; lia.
Qed.

Lemma hexnum_app : forall s t a, hexnum a (s ++ t) = hexnum (hexnum a s) t.
Proof. induction s; intros; cbn [app hexnum]; auto. Qed.

Lemma hexloop_ok : forall u k b acc, 0 <= b -> exists s, hexloop u k b acc = s ++ acc /\ length s = k /\
  Forall (is_hex u) s /\ hexnum 0 s = b mod 16^(Z.of_nat k).
Proof.
  induction k; intros b acc Hb; cbn [hexloop].
  - exists []. cbn [length app hexnum]. rewrite Z.mod_1_r. auto.
  - assert (D : Z.land b 15 = b mod 16) by (change 15 with (Z.ones 4); rewrite Z.land_ones by lia; reflexivity).
    assert (M := Z.mod_pos_bound b 16 ltac:(lia)). rewrite D.
    destruct (hexdigit_val u (b mod 16) M) as [HV HX].
    destruct (IHk (Z.shiftr b 4) (hexdigit u (b mod 16) :: acc)) as (s & E & L & F & N).
    { apply Z.shiftr_nonneg. assumption. }
    exists (s ++ [hexdigit u (b mod 16)]). rewrite E, <- app_assoc. split; [reflexivity|]. split; [rewrite app_length; cbn; lia|].
    split; [apply Forall_app; split; [assumption|constructor; [assumption|constructor]]|].
    rewrite hexnum_app, N. cbn [hexnum]. rewrite HV. rewrite Z.shiftr_div_pow2 by lia. change (2^4) with 16.
    rewrite Nat2Z.inj_succ, Z.pow_succ_r by lia.
    rewrite Z.rem_mul_r by (try apply Z.pow_nonzero; lia). lia.
Qed.

(* tohex(x, n): |n| (at most 8) digits of the low part of x, upper case for negative n *)
Theorem tohex_ok : forall x n, - two31 < n < two31 -> exists s, bit_tohex x (Some n) = Ok s /\
  Z.of_nat (length s) = Z.min 8 (Z.abs n) /\ Forall (is_hex (n <? 0)) s /\
  hexnum 0 s = x mod 16^(Z.min 8 (Z.abs n)).
Proof.
  intros x n Hn. unfold bit_tohex.
  assert (E : s32 (barg n) = n).
  { unfold barg. destruct (u32_eqm n) as [k K]. destruct (s32_eqm (u32 n)) as [j J]. pose proof (s32_range (u32 n)).
    pose proof (u32_range n). unfold_consts. lia. }
  rewrite E. destruct (Z.eqb_spec n (- two31)); [lia|].
  set (m := if 8 <? Z.abs n then 8 else Z.abs n).
  assert (M : m = Z.min 8 (Z.abs n)) by (unfold m; destruct (Z.ltb_spec 8 (Z.abs n)); lia).
  destruct (hexloop_ok (n <? 0) (Z.to_nat m) (barg x) []) as (s & ES & L & F & N); [apply u32_range|].
  exists s. rewrite ES, app_nil_r. split; [reflexivity|]. split; [lia|]. split; [assumption|].
  rewrite N. rewrite Z2Nat.id by lia. rewrite M. unfold barg, u32. change two32 with (16^8).
  assert (P : 16^8 = 16^(Z.min 8 (Z.abs n)) * 16^(8 - Z.min 8 (Z.abs n))) by (rewrite <- Z.pow_add_r by lia; f_equal; lia).
  symmetry. apply Znumtheory.Zmod_div_mod; [apply Z.pow_pos_nonneg; lia|reflexivity|]. rewrite P. apply Z.divide_factor_l.
Qed.

Theorem minint_undefined : (forall x, b_lshift x minint = UB /\ b_rshift x minint = UB /\ b_arshift x minint = UB /\ b_rrot x minint = UB) /\
  (forall x v, b_extract x 1 maxint = UB /\ b_replace x v 1 maxint = UB) /\ (forall x, bit_tohex x (Some (- two31)) = UB).
Proof. repeat split; reflexivity. Qed.
