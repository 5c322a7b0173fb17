Require Import ZArith List Bool Lia.
From Verif Require Import Base Base_facts Bits_facts Random_model.
Import ListNotations.
Open Scope Z_scope.

Lemma two64_pow : two64 = 2^64. Proof. reflexivity. Qed.

Lemma u64_bits : forall x i, 0 <= i -> Z.testbit (u64 x) i = (i <? 64) && Z.testbit x i.
Proof.
  intros x i Hi. unfold u64. rewrite two64_pow. destruct (Z.ltb_spec i 64).
  - rewrite Z.mod_pow2_bits_low by lia. reflexivity.
  - rewrite Z.mod_pow2_bits_high by lia. reflexivity.
Qed.

(* [smeared n w x]: bit i of x is set iff one of the bits i .. i+w-1 of n is *)
Definition smeared (n w x : Z) : Prop :=
  forall i, 0 <= i -> Z.testbit x i = true <-> exists j, 0 <= j < w /\ Z.testbit n (i + j) = true.

Lemma smear_step : forall n w x, 0 < w -> smeared n w x -> smeared n (2 * w) (Z.lor x (Z.shiftr x w)).
Proof.
  intros n w x Hw S i Hi. rewrite Z.lor_spec, orb_true_iff, Z.shiftr_spec by lia.
  rewrite (S i) by lia. rewrite (S (i + w)) by lia. split.
  - intros [(j & Hj & E)|(j & Hj & E)].
    + exists j. split; [lia|assumption].
    + exists (w + j). split; [lia|]. rewrite Z.add_assoc. assumption.
  - intros (j & Hj & E). destruct (Z.lt_ge_cases j w).
    + left. exists j. split; [lia|assumption].
    + right. exists (j - w). split; [lia|]. replace (i + w + (j - w)) with (i + j) by lia. assumption.
Qed.

Lemma mersenne_ok : forall n, 0 < n < two64 -> mersenne n = Z.ones (Z.log2 n + 1).
Proof.
  intros n Hn.
  assert (S : smeared n 64 (mersenne n)).
  { unfold mersenne.
    assert (S1 : smeared n 1 n).
    { intros i Hi. split.
      - intros E. exists 0. rewrite Z.add_0_r. split; [lia|assumption].
      - intros (j & Hj & E). assert (j = 0) by lia. subst j. rewrite Z.add_0_r in E. assumption. }
    apply (smear_step n 32); [lia|]. apply (smear_step n 16); [lia|]. apply (smear_step n 8); [lia|].
    apply (smear_step n 4); [lia|]. apply (smear_step n 2); [lia|]. apply (smear_step n 1); [lia|]. assumption. }
  assert (L0 : 0 <= Z.log2 n) by apply Z.log2_nonneg.
  assert (L1 : Z.log2 n < 64) by (apply Z.log2_lt_pow2; [lia|]; rewrite <- two64_pow; lia).
  apply Z.bits_inj'. intros i Hi. rewrite Z.testbit_ones_nonneg by lia.
  destruct (Z.ltb_spec i (Z.log2 n + 1)).
  - apply S; [lia|]. exists (Z.log2 n - i). split; [lia|]. replace (i + (Z.log2 n - i)) with (Z.log2 n) by lia.
    apply Z.bit_log2. lia.
  - destruct (Z.testbit (mersenne n) i) eqn:E; [|reflexivity]. apply S in E; [|lia].
    destruct E as (j & Hj & E). rewrite Z.bits_above_log2 in E by lia. discriminate.
Qed.

Lemma pow2_test : forall n, 0 <= n -> Z.land n (n + 1) = 0 -> n = Z.ones (Z.log2 (n + 1)).
Proof.
  intros n Hn E. set (m := n + 1) in *. set (b := Z.log2 m).
  assert (B : 2^b <= m < 2^(b + 1)) by (apply Z.log2_spec; unfold m; lia).
  assert (B0 : 0 <= b) by apply Z.log2_nonneg.
  rewrite Z.pow_add_r in B by lia. change (2^1) with 2 in B.
  rewrite Z.ones_equiv. destruct (Z.eq_dec m (2^b)); [unfold m in *; lia|].
  exfalso. assert (T1 : Z.testbit m b = true) by (apply Z.bit_log2; unfold m; lia).
  assert (T2 : Z.testbit n b = true).
  { apply Z.testbit_true; [lia|]. assert (Q : n / 2^b = 1) by (symmetry; apply Z.div_unique with (r := n - 2^b); unfold m in *; lia).
    rewrite Q. reflexivity. }
  assert (F : Z.testbit (Z.land n m) b = true) by (rewrite Z.land_spec, T1, T2; reflexivity).
  rewrite E, Z.bits_0 in F. discriminate.
Qed.

(* the number of bits kept *)
Definition width (n : Z) : Z := if n =? 0 then 0 else Z.log2 n + 1.

Lemma width_range : forall n, 0 <= n < two64 -> 0 <= width n <= 64 /\ n < 2^(width n) /\ (0 < n -> 2^(width n - 1) <= n).
Proof.
  intros n Hn. unfold width. destruct (Z.eqb_spec n 0).
  - subst n. repeat split; try lia.
  - assert (L1 : Z.log2 n < 64) by (apply Z.log2_lt_pow2; [lia|]; rewrite <- two64_pow; lia).
    pose proof (Z.log2_nonneg n). pose proof (Z.log2_spec n ltac:(lia)) as B. replace (Z.succ (Z.log2 n)) with (Z.log2 n + 1) in B by lia.
    repeat split; try lia. intros _. replace (Z.log2 n + 1 - 1) with (Z.log2 n) by lia. lia.
Qed.

Lemma mask_width : forall n, 0 < n < two64 -> mersenne n = Z.ones (width n).
Proof. intros n Hn. rewrite mersenne_ok by assumption. unfold width. destruct (Z.eqb_spec n 0); [lia|reflexivity]. Qed.

Lemma land_mask : forall r w, 0 <= w -> Z.land r (Z.ones w) = r mod 2^w.
Proof. intros. apply Z.land_ones. assumption. Qed.

Lemma pow2_width : forall n, 0 <= n < two64 -> Z.land n (u64 (n + 1)) = 0 -> n = Z.ones (width n).
Proof.
  intros n Hn E. destruct (Z.eq_dec n (two64 - 1)) as [->|NE].
  - reflexivity.
  - rewrite u64_id in E by (split; lia). pose proof (pow2_test n ltac:(lia) E) as P.
    unfold width. destruct (Z.eqb_spec n 0); [subst; reflexivity|].
    set (b := Z.log2 (n + 1)) in *. assert (0 <= b) by apply Z.log2_nonneg.
    assert (0 < b). { destruct (Z.eq_dec b 0) as [E0|]; [|lia]. rewrite E0 in P. change (Z.ones 0) with 0 in P. lia. }
    assert (L : Z.log2 n = b - 1).
    { rewrite P, Z.ones_equiv. rewrite Z.log2_pred_pow2 by lia. lia. }
    rewrite L. replace (b - 1 + 1) with b by lia. exact P.
Qed.

(* words drawn from the generator *)
Fixpoint draws (k : nat) (ran : Z) (st : rstate) : list (Z * rstate) :=
  (ran, st) :: match k with O => [] | S k' => let '(st', r) := nextrand st in draws k' r st' end.

Lemma retry_ok : forall fuel ran lim n st, 
  match find (fun p => negb (n <? Z.land (fst p) lim)) (draws fuel ran st) with
  | Some (r, s) => retry fuel ran lim n st = Ok (Z.land r lim, s)
  | None => retry fuel ran lim n st = OutOfFuel
  end.
Proof.
  induction fuel; intros ran lim n st; cbn [draws retry].
  - cbn [find fst]. destruct (negb (n <? Z.land ran lim)); reflexivity.
  - cbn [find fst]. destruct (negb (n <? Z.land ran lim)); [reflexivity|].
    destruct (nextrand st) as [st' r]. apply IHfuel.
Qed.

(* what project computes: the first word which, reduced to the right number of bits, is in range *)
Theorem project_ok : forall fuel ran n st, 0 <= n < two64 ->
  project fuel ran n st =
  match find (fun p => fst p mod 2^(width n) <=? n) (draws fuel ran st) with
  | Some (r, s) => Ok (r mod 2^(width n), s)
  | None => OutOfFuel
  end.
Proof.
  intros fuel ran n st Hn. destruct (width_range n Hn) as (W1 & W2 & W3). unfold project.
  destruct (Z.eqb_spec (Z.land n (u64 (n + 1))) 0) as [E|E].
  - pose proof (pow2_width n Hn E) as P.
    assert (M : forall r, Z.land r n = r mod 2^(width n)) by (intros; rewrite P at 1; apply land_mask; lia).
    assert (Q : forall r, (r mod 2^(width n) <=? n) = true).
    { intros. apply Z.leb_le. rewrite <- M. assert (B := Z.mod_pos_bound r (2^width n) ltac:(lia)).
      rewrite M. rewrite Z.ones_equiv in P. lia. }
    destruct fuel; cbn [draws find fst]; rewrite Q, M; reflexivity.
  - assert (N0 : n <> 0) by (intros ->; apply E; reflexivity).
    rewrite mask_width by lia.
    pose proof (retry_ok fuel ran (Z.ones (width n)) n st) as R.
    assert (X : forall l : list (Z * rstate), find (fun p => negb (n <? Z.land (fst p) (Z.ones (width n)))) l =
                  find (fun p => fst p mod 2^(width n) <=? n) l).
    { induction l as [|p l IH]; cbn [find]; [reflexivity|]. rewrite land_mask by lia. rewrite <- IH.
      rewrite Z.leb_antisym. reflexivity. }
    rewrite X in R. destruct (find _ (draws fuel ran st)) as [[r s]|]; rewrite R; [|reflexivity].
    rewrite land_mask by lia. reflexivity.
Qed.

Theorem project_range : forall fuel ran n st v st', 0 <= n < two64 -> project fuel ran n st = Ok (v, st') -> 0 <= v <= n.
Proof.
  intros fuel ran n st v st' Hn E. rewrite project_ok in E by assumption.
  destruct (find _ _) as [[r s]|] eqn:F; [|discriminate]. inversion E; subst.
  apply find_some in F. destruct F as [_ F]. cbn [fst] in F. apply Z.leb_le in F.
  destruct (width_range n Hn) as (W1 & W2 & W3). assert (B := Z.mod_pos_bound r (2^width n) ltac:(lia)). lia.
Qed.

Theorem random_range : forall fuel low up st v st', is_s64 low -> is_s64 up ->
  math_random fuel low up st = Ok (v, st') -> low <= v <= up.
Proof.
  intros fuel low up st v st' Hl Hu E. unfold math_random in E. destruct (nextrand st) as [st1 rv].
  destruct (Z.ltb_spec up low); [discriminate|].
  assert (N : u64 (u64 up - u64 low) = up - low).
  { destruct (u64_eqm up) as [k1 E1]. destruct (u64_eqm low) as [k2 E2]. 
    apply u64_unique with (k := k2 - k1); [split; unfold_consts; lia|]. rewrite E1, E2. lia. }
  rewrite N in E. destruct (project fuel rv (up - low) st1) as [[p s]| | |] eqn:P; try discriminate.
  cbn [bind] in E. apply project_range in P; [|unfold_consts; lia].
  assert (R : s64 (u64 (p + u64 low)) = p + low).
  { rewrite s64_u64. destruct (u64_eqm low) as [k E2]. apply s64_unique with (k := - k); [unfold_consts; lia|]. lia. }
  injection E as E1 E2. lia.
Qed.

Theorem random_empty : forall fuel low up st, up < low -> math_random fuel low up st = Err EArg.
Proof.
  intros. unfold math_random. destruct (nextrand st). destruct (Z.ltb_spec up low); [reflexivity|lia].
Qed.

(* no bias: the words giving v at once are v, v + 2^w, v + 2*2^w, ...: 2^(64-w) words for each v *)
Theorem project_uniform : forall n v ran st, 0 <= n < two64 -> 0 <= v <= n -> 0 <= ran < two64 ->
  (project 0 ran n st = Ok (v, st) <-> exists k, 0 <= k < 2^(64 - width n) /\ ran = v + k * 2^(width n)).
Proof.
  intros n v ran st Hn Hv Hr. destruct (width_range n Hn) as (W1 & W2 & W3).
  assert (P64 : two64 = 2^width n * 2^(64 - width n)).
  { rewrite <- Z.pow_add_r by lia. rewrite two64_pow. f_equal. lia. }
  assert (0 < 2^width n) by (apply Z.pow_pos_nonneg; lia).
  rewrite project_ok by assumption. cbn [draws find fst].
  assert (D := Z.div_mod ran (2^width n) ltac:(lia)).
  assert (B := Z.mod_pos_bound ran (2^width n) ltac:(lia)).
  split.
  - destruct (Z.leb_spec (ran mod 2^width n) n); [|discriminate]. intros E. injection E as E. exists (ran / 2^width n).
    split; [|lia]. split; [apply Z.div_pos; lia|]. apply Z.div_lt_upper_bound; [lia|]. lia.
  - intros (k & Hk & ->). rewrite Z.mod_add by lia. rewrite Z.mod_small by lia.
    destruct (Z.leb_spec v n); [|lia]. rewrite Z.mod_add, Z.mod_small by lia. reflexivity.
Qed.

(* ---- the generator ---- *)
Definition word (x : Z) : Prop := 0 <= x < two64.
Definition st_ok (st : rstate) : Prop := let '(a, b, c, d) := st in word a /\ word b /\ word c /\ word d.

Lemma word_bits : forall x i, word x -> 64 <= i -> Z.testbit x i = false.
Proof. intros x i W Hi. apply testbit_small with (k := 64); [rewrite <- two64_pow; exact W|assumption]. Qed.

Lemma word_of_bits : forall x, 0 <= x -> (forall i, 64 <= i -> Z.testbit x i = false) -> word x.
Proof.
  intros x H0 H. split; [assumption|]. destruct (Z.lt_ge_cases x two64); [assumption|].
  exfalso. assert (0 < x) by (unfold_consts; lia). assert (L : 64 <= Z.log2 x) by (apply Z.log2_le_pow2; [lia|]; rewrite <- two64_pow; lia).
  pose proof (Z.bit_log2 x ltac:(lia)). rewrite H in H3 by lia. discriminate.
Qed.

Lemma word_lxor : forall x y, word x -> word y -> word (Z.lxor x y).
Proof.
  intros x y X Y. apply word_of_bits.
  - apply Z.lxor_nonneg. unfold word in *. lia.
  - intros i Hi. rewrite Z.lxor_spec, !word_bits by assumption. reflexivity.
Qed.

Lemma word_u64 : forall x, word (u64 x).
Proof. intros. apply u64_range. Qed.

Lemma rotl_bits : forall x n i, word x -> 0 < n < 64 -> 0 <= i < 64 ->
  Z.testbit (rotl x n) i = Z.testbit x ((i - n) mod 64).
Proof.
  intros x n i W Hn Hi. unfold rotl. rewrite Z.lor_spec, u64_bits, Z.shiftr_spec, Z.shiftl_spec by lia.
  destruct (Z.ltb_spec i 64); [|lia]. cbn [andb]. destruct (Z.lt_ge_cases i n).
  - rewrite Z.testbit_neg_r by lia. cbn [orb].
    replace ((i - n) mod 64) with (i + (64 - n)) ; [reflexivity|]. apply Z.mod_unique with (q := -1); lia.
  - rewrite (word_bits x (i + (64 - n))) by (auto; lia). rewrite orb_false_r. rewrite Z.mod_small by lia. reflexivity.
Qed.

Lemma word_rotl : forall x n, word x -> 0 < n < 64 -> word (rotl x n).
Proof.
  intros x n W Hn. unfold rotl. apply word_of_bits.
  - apply Z.lor_nonneg. split; [apply word_u64|]. apply Z.shiftr_nonneg. apply W.
  - intros i Hi. rewrite Z.lor_spec, u64_bits, Z.shiftr_spec by lia. destruct (Z.ltb_spec i 64); [lia|]. cbn [andb orb].
    apply word_bits; [assumption|lia].
Qed.

Lemma rotl_inj : forall x y n, word x -> word y -> 0 < n < 64 -> rotl x n = rotl y n -> x = y.
Proof.
  intros x y n X Y Hn E. apply Z.bits_inj'. intros i Hi. destruct (Z.lt_ge_cases i 64).
  - assert (B := Z.mod_pos_bound (i + n) 64 ltac:(lia)).
    assert (Q : ((i + n) mod 64 - n) mod 64 = i).
    { rewrite Zminus_mod_idemp_l. replace (i + n - n) with i by lia. apply Z.mod_small. lia. }
    pose proof (rotl_bits x n ((i + n) mod 64) X Hn B) as RX. pose proof (rotl_bits y n ((i + n) mod 64) Y Hn B) as RY.
    rewrite Q in RX, RY. rewrite <- RX, <- RY, E. reflexivity.
  - rewrite !word_bits by assumption. reflexivity.
Qed.

Lemma xorshift_inj : forall k x y, 0 < k -> word x -> word y ->
  Z.lxor x (u64 (Z.shiftl x k)) = Z.lxor y (u64 (Z.shiftl y k)) -> x = y.
Proof.
  intros k x y Hk X Y E.
  assert (ALL : forall m, forall i, 0 <= i < Z.of_nat m -> Z.testbit x i = Z.testbit y i).
  { induction m; intros i Hi; [lia|]. destruct (Z.lt_ge_cases i (Z.of_nat m)); [apply IHm; lia|].
    destruct (Z.lt_ge_cases i 64).
    - assert (T : Z.testbit (Z.lxor x (u64 (Z.shiftl x k))) i = Z.testbit (Z.lxor y (u64 (Z.shiftl y k))) i) by (rewrite E; reflexivity).
      rewrite !Z.lxor_spec, !u64_bits, !Z.shiftl_spec in T by lia. destruct (Z.ltb_spec i 64); [|lia]. cbn [andb] in T.
      assert (S : Z.testbit x (i - k) = Z.testbit y (i - k)).
      { destruct (Z.lt_ge_cases (i - k) 0); [rewrite !Z.testbit_neg_r by lia; reflexivity|]. apply IHm. lia. }
      rewrite S in T. destruct (Z.testbit x i), (Z.testbit y i), (Z.testbit y (i - k)); cbn in T; congruence.
    - rewrite !word_bits by assumption. reflexivity. }
  apply Z.bits_inj'. intros i Hi. apply (ALL (S (Z.to_nat i))). lia.
Qed.

Lemma nextrand_ok : forall st, st_ok st -> st_ok (fst (nextrand st)) /\ word (snd (nextrand st)).
Proof.
  intros [[[a b] c] d] (A & B & C & D). cbn [nextrand fst snd]. split; [|apply word_u64].
  pose proof (word_lxor c a C A). pose proof (word_lxor d b D B).
  repeat split; try (apply word_lxor; auto using word_u64); try (apply word_rotl; [assumption|lia]).
Qed.

Lemma lxor_eq_l : forall a b c, Z.lxor a b = Z.lxor a c -> b = c.
Proof.
  intros a b c E. assert (H : Z.lxor a (Z.lxor a b) = Z.lxor a (Z.lxor a c)) by (rewrite E; reflexivity).
  rewrite <- !Z.lxor_assoc, Z.lxor_nilpotent, !Z.lxor_0_l in H. assumption.
Qed.
Lemma lxor_eq_r : forall a b c, Z.lxor b a = Z.lxor c a -> b = c.
Proof. intros a b c E. rewrite (Z.lxor_comm b), (Z.lxor_comm c) in E. eapply lxor_eq_l; eauto. Qed.

Theorem nextrand_inj : forall s t, st_ok s -> st_ok t -> fst (nextrand s) = fst (nextrand t) -> s = t.
Proof.
  intros [[[a b] c] d] [[[a' b'] c'] d'] (A & B & C & D) (A' & B' & C' & D') E.
  cbn [nextrand fst] in E. apply pair_equal_spec in E. destruct E as [E E3]. apply pair_equal_spec in E. destruct E as [E E2].
  apply pair_equal_spec in E. destruct E as [E0 E1].
  apply rotl_inj in E3; try lia; try (apply word_lxor; assumption).
  rewrite E3 in E0. apply lxor_eq_r in E0. subst a'.
  assert (EB : b = b').
  { apply (xorshift_inj 17); auto; try lia.
    assert (X : Z.lxor (Z.lxor b (Z.lxor c a)) (Z.lxor (Z.lxor c a) (u64 (Z.shiftl b 17))) =
                Z.lxor (Z.lxor b' (Z.lxor c' a)) (Z.lxor (Z.lxor c' a) (u64 (Z.shiftl b' 17)))) by (rewrite E1, E2; reflexivity).
    assert (Y : forall p q w, Z.lxor (Z.lxor p q) (Z.lxor q w) = Z.lxor p w).
    { intros. rewrite Z.lxor_assoc, <- (Z.lxor_assoc q q), Z.lxor_nilpotent, Z.lxor_0_l. reflexivity. }
    rewrite !Y in X. exact X. }
  subst b'. apply lxor_eq_l in E1. apply lxor_eq_r in E1. subst c'. apply lxor_eq_r in E3. subst d'. reflexivity.
Qed.

Lemma discard_ok : forall k st, st_ok st -> st <> (0, 0, 0, 0) -> st_ok (discard k st) /\ discard k st <> (0, 0, 0, 0).
Proof.
  induction k; intros st S N; cbn [discard]; [auto|]. apply IHk; [apply nextrand_ok; assumption|].
  intros E. apply N. apply nextrand_inj; auto.
  split; [|split; [|split]]; unfold word; unfold_consts; lia.
Qed.

Theorem seed_nonzero : forall n1 n2 k, let st := discard k (setseed n1 n2) in st_ok st /\ st <> (0, 0, 0, 0).
Proof.
  intros n1 n2 k st. unfold st, setseed.
  assert (S0 : st_ok (u64 n1, 255, u64 n2, 0)).
  { split; [apply word_u64|]. split; [unfold word; unfold_consts; lia|]. split; [apply word_u64|unfold word; unfold_consts; lia]. }
  destruct (discard_ok 16 _ S0) as [A B]; [congruence|]. apply discard_ok; assumption.
Qed.
