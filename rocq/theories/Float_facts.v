(* Facts about binary64 floats which are independent of Lua: value, comparison, exactness. *)
Require Import ZArith QArith List Bool Lia.
From Coq Require Import Floats.SpecFloat.
From Verif Require Import Base Base_facts Float_model Float_spec.
Open Scope Z_scope.

(* ---- dyadic numbers ---- *)
Lemma dyadic_shift : forall m e k, k <= e -> (dyadic m e == dyadic (m * 2 ^ (e - k)) k)%Q.
Proof.
  intros m e k H. unfold dyadic. destruct (Z.leb_spec 0 e) as [E|E]; destruct (Z.leb_spec 0 k) as [K|K]; try lia.
  - rewrite <- Z.mul_assoc, <- Z.pow_add_r by lia. replace (e - k + k) with e by lia. reflexivity.
  - unfold Qeq, inject_Z. cbn [Qnum Qden]. rewrite Z2Pos.id by (apply Z.pow_pos_nonneg; lia).
    rewrite <- Z.mul_assoc, <- Z.pow_add_r by lia. replace (e + - k) with (e - k) by lia. lia.
  - unfold Qeq. cbn [Qnum Qden]. rewrite !Z2Pos.id by (apply Z.pow_pos_nonneg; lia).
    rewrite <- Z.mul_assoc, <- Z.pow_add_r by lia. f_equal. f_equal. lia.
Qed.
Lemma dyadic_same : forall a b k, (dyadic a k ?= dyadic b k)%Q = (a ?= b).
Proof.
  intros. unfold dyadic. destruct (Z.leb_spec 0 k).
  - unfold Qcompare, inject_Z. cbn [Qnum Qden]. rewrite !Z.mul_1_r.
    pose proof (Z.pow_pos_nonneg 2 k ltac:(lia) ltac:(lia)). rewrite !(Z.mul_comm _ (2 ^ k)).
    symmetry. apply Zmult_compare_compat_l. lia.
  - unfold Qcompare. cbn [Qnum Qden]. rewrite Z2Pos.id by (apply Z.pow_pos_nonneg; lia).
    pose proof (Z.pow_pos_nonneg 2 (- k) ltac:(lia) ltac:(lia)). rewrite !(Z.mul_comm _ (2 ^ (- k))).
    symmetry. apply Zmult_compare_compat_l. lia.
Qed.
Lemma dyadic_compare : forall m1 e1 m2 e2 k, k <= e1 -> k <= e2 ->
  (dyadic m1 e1 ?= dyadic m2 e2)%Q = (m1 * 2 ^ (e1 - k) ?= m2 * 2 ^ (e2 - k)).
Proof.
  intros. rewrite (dyadic_shift m1 e1 k) by assumption. rewrite (dyadic_shift m2 e2 k) by assumption. apply dyadic_same.
Qed.
Lemma inject_dyadic : forall z, (inject_Z z == dyadic z 0)%Q.
Proof. intros. unfold dyadic. cbn [Z.leb Z.compare]. rewrite Z.pow_0_r, Z.mul_1_r. reflexivity. Qed.
Lemma dyadic_zero : forall e, (dyadic 0 e == 0)%Q.
Proof. intros. unfold dyadic. destruct (Z.leb_spec 0 e); [rewrite Z.mul_0_l|]; reflexivity. Qed.

Lemma Qlt_cmp : forall p q, (p < q)%Q <-> (p ?= q)%Q = Lt. Proof. intros. apply Qlt_alt. Qed.
Lemma Qeq_cmp : forall p q, (p == q)%Q <-> (p ?= q)%Q = Eq. Proof. intros. apply Qeq_alt. Qed.
Lemma Qle_cmp : forall p q, (p <= q)%Q <-> (p ?= q)%Q <> Gt. Proof. intros. apply Qle_alt. Qed.

(* ---- canonical mantissas ---- *)
Lemma digits_log2 : forall p, Z.pos (digits2_pos p) = Z.log2 (Z.pos p) + 1.
Proof.
  induction p; cbn [digits2_pos].
  - rewrite Pos2Z.inj_succ, IHp, Pos2Z.inj_xI. rewrite Z.log2_succ_double by lia. lia.
  - rewrite Pos2Z.inj_succ, IHp, Pos2Z.inj_xO. rewrite Z.log2_double by lia. lia.
  - reflexivity.
Qed.
Definition dig (p : positive) : Z := Z.pos (digits2_pos p).
Lemma dig_pos : forall p, 1 <= dig p. Proof. intros. unfold dig. lia. Qed.
Lemma dig_bounds : forall p, 2 ^ (dig p - 1) <= Z.pos p < 2 ^ dig p.
Proof.
  intros. unfold dig. rewrite digits_log2. replace (Z.log2 (Z.pos p) + 1 - 1) with (Z.log2 (Z.pos p)) by lia.
  pose proof (Z.log2_spec (Z.pos p) ltac:(lia)). replace (Z.log2 (Z.pos p) + 1) with (Z.succ (Z.log2 (Z.pos p))) by lia. assumption.
Qed.
Lemma dig_shift : forall p q n, 0 <= n -> Z.pos p = Z.pos q * 2 ^ n -> dig p = dig q + n.
Proof. intros. unfold dig. rewrite !digits_log2, H0. rewrite Z.log2_mul_pow2 by lia. lia. Qed.

Lemma bounded_inv : forall m e, bounded prec emax m e = true ->
  fexp prec emax (dig m + e) = e /\ e <= 971 /\ -1074 <= e /\ dig m <= 53 /\ (dig m = 53 \/ e = -1074).
Proof.
  intros m e H. unfold bounded in H. apply andb_prop in H. destruct H as [C B].
  apply Zle_bool_imp_le in B. unfold canonical_mantissa in C. apply Zeq_bool_eq in C.
  change (Z.pos (digits2_pos m)) with (dig m) in C. split; [assumption|].
  unfold fexp, emin, prec, emax in *. lia.
Qed.
Lemma bounded_intro : forall m e, e <= 971 -> -1074 <= e -> dig m <= 53 -> dig m = 53 \/ e = -1074 -> bounded prec emax m e = true.
Proof.
  intros. unfold bounded. apply andb_true_intro. split.
  - unfold canonical_mantissa. apply Zeq_is_eq_bool. change (Z.pos (digits2_pos m)) with (dig m).
    unfold fexp, emin, prec, emax in *. lia.
  - apply Zle_imp_le_bool. unfold prec, emax. lia.
Qed.
Lemma bounded_mant : forall m e, bounded prec emax m e = true -> Z.pos m < 2 ^ 53 /\ (-1074 < e -> 2 ^ 52 <= Z.pos m).
Proof.
  intros m e H. destruct (bounded_inv m e H) as (_ & _ & _ & D & O). pose proof (dig_bounds m) as [L U]. split.
  - eapply Z.lt_le_trans; [exact U|]. apply Z.pow_le_mono_r; lia.
  - intros E. replace 52 with (dig m - 1) by lia. assumption.
Qed.

(* ---- comparison of positive finite floats ---- *)
Lemma pos_lt_exp : forall m1 e1 m2 e2, bounded prec emax m1 e1 = true -> bounded prec emax m2 e2 = true -> e1 < e2 ->
  (dyadic (Z.pos m1) e1 < dyadic (Z.pos m2) e2)%Q.
Proof.
  intros m1 e1 m2 e2 B1 B2 H. rewrite Qlt_cmp, (dyadic_compare _ _ _ _ e1) by lia. rewrite Z.sub_diag, Z.pow_0_r, Z.mul_1_r.
  apply Z.compare_lt_iff. destruct (bounded_mant _ _ B1) as [M1 _]. destruct (bounded_mant _ _ B2) as [_ M2].
  destruct (bounded_inv _ _ B1) as (_ & _ & E1 & _). specialize (M2 ltac:(lia)).
  assert (2 ^ 53 <= Z.pos m2 * 2 ^ (e2 - e1)); [|lia].
  replace (2 ^ 53) with (2 ^ 52 * 2 ^ 1) by (rewrite <- Z.pow_add_r by lia; reflexivity).
  apply Z.mul_le_mono_nonneg; try lia. apply Z.pow_le_mono_r; lia.
Qed.
Lemma dyadic_opp : forall m e, (dyadic (- m) e == - dyadic m e)%Q.
Proof.
  intros. unfold dyadic. destruct (0 <=? e); [|reflexivity]. rewrite Z.mul_opp_l, inject_Z_opp. reflexivity.
Qed.
Lemma dyadic_pos : forall m e, 0 < m -> (0 < dyadic m e)%Q.
Proof.
  intros. destruct (Z.leb_spec 0 e) as [E|E].
  - rewrite <- (dyadic_zero e). rewrite Qlt_cmp, dyadic_same. apply Z.compare_lt_iff. assumption.
  - rewrite <- (dyadic_zero e). rewrite Qlt_cmp, dyadic_same. apply Z.compare_lt_iff. assumption.
Qed.
Lemma dyadic_neg : forall m e, m < 0 -> (dyadic m e < 0)%Q.
Proof.
  intros. rewrite <- (dyadic_zero e). rewrite Qlt_cmp, dyadic_same. apply Z.compare_lt_iff. assumption.
Qed.

Definition cmp_ok (c : option comparison) (a b : option ext) : Prop :=
  match c, a, b with
  | None, None, _ => True
  | None, _, None => True
  | Some Lt, Some x, Some y => elt x y
  | Some Gt, Some x, Some y => elt y x
  | Some Eq, Some x, Some y => eeq x y
  | _, _, _ => False
  end.

Lemma compare_sym_Q : forall p q, (q ?= p)%Q = CompOpp (p ?= q)%Q.
Proof. intros. symmetry. apply Qcompare_antisym. Qed.

Lemma SFcompare_ok : forall a b, valid a -> valid b -> cmp_ok (SFcompare a b) (fval a) (fval b).
Proof.
  intros a b Va Vb. unfold valid in *.
  destruct a as [sa|sa| |sa ma ea]; destruct b as [sb|sb| |sb mb eb]; cbn [SFcompare fval valid_binary] in *;
    try (destruct sa); try (destruct sb); cbn [cmp_ok elt eeq]; try exact I; try reflexivity.
  all: try (apply dyadic_neg; lia); try (apply dyadic_pos; lia).
  - destruct (Z.compare_spec ea eb) as [->|L|L].
    + fold (Pos.compare ma mb). pose proof (Pos.compare_spec ma mb) as P. unfold CompOpp. change (Pos.compare_cont Eq ma mb) with (Pos.compare ma mb).
      destruct P as [->|P|P]; cbn [cmp_ok elt eeq].
      * reflexivity.
      * rewrite Qlt_cmp, dyadic_same. apply Z.compare_lt_iff. lia.
      * rewrite Qlt_cmp, dyadic_same. apply Z.compare_lt_iff. lia.
    + cbn [cmp_ok elt eeq]. pose proof (pos_lt_exp _ _ _ _ Va Vb L) as P.
      change (Z.neg ma) with (- Z.pos ma). change (Z.neg mb) with (- Z.pos mb). rewrite !dyadic_opp.
      apply Qopp_lt_compat. assumption.
    + cbn [cmp_ok elt eeq]. pose proof (pos_lt_exp _ _ _ _ Vb Va L) as P.
      change (Z.neg ma) with (- Z.pos ma). change (Z.neg mb) with (- Z.pos mb). rewrite !dyadic_opp.
      apply Qopp_lt_compat. assumption.
  - cbn [cmp_ok elt]. eapply Qlt_trans; [apply dyadic_neg; lia|apply dyadic_pos; lia].
  - cbn [cmp_ok elt]. eapply Qlt_trans; [apply dyadic_neg; lia|apply dyadic_pos; lia].
  - destruct (Z.compare_spec ea eb) as [->|L|L].
    + change (Pos.compare_cont Eq ma mb) with (Pos.compare ma mb). pose proof (Pos.compare_spec ma mb) as P.
      destruct P as [->|P|P]; cbn [cmp_ok elt eeq].
      * reflexivity.
      * rewrite Qlt_cmp, dyadic_same. apply Z.compare_lt_iff. lia.
      * rewrite Qlt_cmp, dyadic_same. apply Z.compare_lt_iff. lia.
    + cbn [cmp_ok elt eeq]. apply pos_lt_exp; assumption.
    + cbn [cmp_ok elt eeq]. apply pos_lt_exp; assumption.
Qed.

(* ---- rounding is exact on representable values ---- *)
Lemma iter_pos_nat : forall (A : Type) (f : A -> A) n x, iter_pos f n x = Nat.iter (Pos.to_nat n) f x.
Proof.
  assert (D : forall (A : Type) (f : A -> A) a b x, Nat.iter (a + b) f x = Nat.iter a f (Nat.iter b f x)).
  { intros. induction a; cbn [Nat.iter plus nat_rect]; [reflexivity|]. cbn. f_equal. exact IHa. }
  induction n; intros x; cbn [iter_pos].
  - rewrite !IHn. replace (Pos.to_nat n~1) with (Pos.to_nat n + (Pos.to_nat n + 1))%nat by lia. rewrite !D. reflexivity.
  - rewrite !IHn. replace (Pos.to_nat n~0) with (Pos.to_nat n + Pos.to_nat n)%nat by lia. rewrite !D. reflexivity.
  - reflexivity.
Qed.
Lemma shr_exact : forall n m, Nat.iter n shr_1 (Build_shr_record (Z.pos m * 2 ^ Z.of_nat n) false false) = Build_shr_record (Z.pos m) false false.
Proof.
  induction n; intros m.
  - cbn. f_equal. lia.
  - replace (S n) with (n + 1)%nat by lia.
    assert (D : forall (A : Type) (f : A -> A) a x, Nat.iter (a + 1) f x = Nat.iter a f (f x)).
    { intros A f a x. induction a; cbn; [reflexivity|]. f_equal. exact IHa. }
    rewrite D. rewrite Nat2Z.inj_add, Z.pow_add_r by lia. change (2 ^ Z.of_nat 1) with 2.
    assert (Q : exists q, Z.pos m * 2 ^ Z.of_nat n = Z.pos q).
    { pose proof (Z.pow_pos_nonneg 2 (Z.of_nat n) ltac:(lia) ltac:(lia)). destruct (Z.pos m * 2 ^ Z.of_nat n) eqn:E; [lia|eexists; reflexivity|lia]. }
    destruct Q as [q Q]. rewrite Z.mul_assoc, Q. replace (Z.pos q * 2) with (Z.pos q~0) by lia. cbn [shr_1 orb].
    rewrite <- Q. apply IHn.
Qed.

Lemma round_aux_exact : forall s M E m e, bounded prec emax m e = true -> E <= e -> Z.pos M = Z.pos m * 2 ^ (e - E) ->
  binary_round_aux prec emax s (Z.pos M) E loc_Exact = S754_finite s m e.
Proof.
  intros s M E m e B H V. destruct (bounded_inv m e B) as (C & E1 & E2 & D1 & D2).
  assert (DM : dig M + E = dig m + e) by (rewrite (dig_shift M m (e - E)) by (auto; lia); lia).
  assert (S2 : shr_fexp prec emax (Z.pos m) e loc_Exact = (Build_shr_record (Z.pos m) false false, e)).
  { unfold shr_fexp. cbn [Zdigits2]. change (Z.pos (digits2_pos m)) with (dig m). rewrite C, Z.sub_diag. reflexivity. }
  unfold binary_round_aux.
  assert (S1 : shr_fexp prec emax (Z.pos M) E loc_Exact = (Build_shr_record (Z.pos m) false false, e)).
  { unfold shr_fexp. cbn [Zdigits2]. change (Z.pos (digits2_pos M)) with (dig M). rewrite DM, C.
    cbn [shr_record_of_loc]. destruct (e - E) as [|p|p] eqn:P.
    - cbn [shr]. rewrite V. cbn [Z.pow]. f_equal; [f_equal; lia|lia].
    - cbn [shr]. rewrite iter_pos_nat, V. rewrite <- (positive_nat_Z p) at 1. rewrite shr_exact. f_equal. lia.
    - lia. }
  rewrite S1. cbn [shr_m loc_of_shr_record round_nearest_even]. rewrite S2. cbn [shr_m].
  replace (Zle_bool e (emax - prec)) with true; [reflexivity|]. symmetry. apply Zle_imp_le_bool. unfold emax, prec. lia.
Qed.

Lemma round_exact : forall s M E m e, bounded prec emax m e = true -> (dyadic (Z.pos M) E == dyadic (Z.pos m) e)%Q ->
  binary_round prec emax s M E = S754_finite s m e.
Proof.
  intros s M E m e B V. destruct (bounded_inv m e B) as (C & E1 & E2 & D1 & D2).
  rewrite Qeq_cmp, (dyadic_compare _ _ _ _ (Z.min E e)) in V by lia. apply Z.compare_eq in V.
  unfold binary_round, shl_align. change (Z.pos (digits2_pos M)) with (dig M).
  destruct (Z.le_gt_cases E e) as [L|L].
  - replace (Z.min E e) with E in V by lia. rewrite Z.sub_diag, Z.pow_0_r, Z.mul_1_r in V.
    assert (DM : dig M + E = dig m + e) by (rewrite (dig_shift M m (e - E)) by (auto; lia); lia).
    rewrite DM, C. destruct (e - E) eqn:P; try lia.
    + apply round_aux_exact; auto. rewrite P. assumption.
    + apply round_aux_exact; auto. rewrite P. assumption.
  - replace (Z.min E e) with e in V by lia. rewrite Z.sub_diag, Z.pow_0_r, Z.mul_1_r in V.
    assert (DM : dig M + E = dig m + e) by (rewrite (dig_shift m M (E - e)) by (auto; lia); lia).
    rewrite DM, C. destruct (e - E) eqn:P; try lia.
    apply round_aux_exact; [assumption|lia|]. rewrite Z.sub_diag, Z.pow_0_r, Z.mul_1_r.
    rewrite shift_pos_correct. rewrite <- V. rewrite Z.mul_comm. f_equal. replace (E - e) with (Z.pos p) by lia.
    reflexivity.
Qed.

Lemma normalize_exact : forall M E s0 s m e, bounded prec emax m e = true -> M <> 0 ->
  (dyadic M E == dyadic (sgn_m s m) e)%Q -> binary_normalize prec emax M E s0 = S754_finite s m e.
Proof.
  intros M E s0 s m e B N V.
  destruct M as [|M|M]; [lia| |].
  - destruct s; cbn [sgn_m] in V.
    + exfalso. pose proof (dyadic_pos (Z.pos M) E ltac:(lia)). pose proof (dyadic_neg (Z.neg m) e ltac:(lia)). rewrite V in H.
      apply (Qlt_irrefl 0). eapply Qlt_trans; eassumption.
    + cbn [binary_normalize]. apply round_exact; assumption.
  - destruct s; cbn [sgn_m] in V.
    + cbn [binary_normalize]. apply round_exact; [assumption|].
      change (Z.neg M) with (- Z.pos M) in V. change (Z.neg m) with (- Z.pos m) in V. rewrite !dyadic_opp in V.
      rewrite <- (Qopp_opp (dyadic (Z.pos M) E)), V, Qopp_opp. reflexivity.
    + exfalso. pose proof (dyadic_pos (Z.pos m) e ltac:(lia)). pose proof (dyadic_neg (Z.neg M) E ltac:(lia)). rewrite V in H0.
      apply (Qlt_irrefl 0). eapply Qlt_trans; eassumption.
Qed.

(* every integer of at most 53 bits is representable *)
Lemma int_representable : forall z, z <> 0 -> Z.abs z <= 2 ^ 53 ->
  exists s m e, bounded prec emax m e = true /\ (dyadic (sgn_m s m) e == inject_Z z)%Q /\ (s = true <-> z < 0).
Proof.
  intros z N A.
  assert (P : forall p, Z.pos p <= 2 ^ 53 -> exists m e, bounded prec emax m e = true /\ (dyadic (Z.pos m) e == inject_Z (Z.pos p))%Q).
  { intros p H. destruct (Z.eq_dec (Z.pos p) (2 ^ 53)) as [E|E].
    - exists 4503599627370496%positive, 1. split; [reflexivity|]. rewrite E. unfold dyadic. cbn [Z.leb Z.compare]. reflexivity.
    - pose proof (dig_bounds p) as [L U]. pose proof (dig_pos p) as DP.
      assert (dig p <= 53).
      { destruct (Z.le_gt_cases (dig p) 53); [assumption|]. exfalso. assert (2 ^ 53 <= 2 ^ (dig p - 1)) by (apply Z.pow_le_mono_r; lia). lia. }
      set (k := 53 - dig p) in *. assert (K : 0 <= k) by lia. exists (Z.to_pos (Z.pos p * 2 ^ k)), (- k).
      assert (PK : 0 < Z.pos p * 2 ^ k) by (pose proof (Z.pow_pos_nonneg 2 k); lia).
      assert (DG : dig (Z.to_pos (Z.pos p * 2 ^ k)) = 53).
      { rewrite (dig_shift _ p k K) by (rewrite Z2Pos.id by assumption; reflexivity). lia. }
      split; [apply bounded_intro; lia|]. rewrite Z2Pos.id by assumption.
      rewrite Qeq_cmp, inject_dyadic, (dyadic_compare _ _ _ _ (- k)) by lia. apply Z.compare_eq_iff.
      replace (- k - - k) with 0 by lia. replace (0 - - k) with k by lia. rewrite Z.pow_0_r, Z.mul_1_r. reflexivity. }
  destruct z as [|p|p]; [lia| |].
  - destruct (P p ltac:(lia)) as (m & e & B & V). exists false, m, e. split; [assumption|]. split; [exact V|]. split; [discriminate|lia].
  - destruct (P p ltac:(lia)) as (m & e & B & V). exists true, m, e. split; [assumption|]. split.
    + cbn [sgn_m]. change (Z.neg m) with (- Z.pos m). rewrite dyadic_opp, V. change (Z.neg p) with (- Z.pos p). rewrite inject_Z_opp. reflexivity.
    + split; [lia|reflexivity].
Qed.

Definition fin_is (f : flt) (z : Z) : Prop := exists q, fval f = Some (Fin q) /\ (q == inject_Z z)%Q.

Lemma normalize_int : forall M E s0 z, Z.abs z <= 2 ^ 53 -> (dyadic M E == inject_Z z)%Q ->
  valid (binary_normalize prec emax M E s0) /\ fin_is (binary_normalize prec emax M E s0) z.
Proof.
  intros M E s0 z A V. destruct (Z.eq_dec z 0) as [->|N].
  - assert (M = 0).
    { destruct (Z.lt_trichotomy M 0) as [H|[H|H]]; [|assumption|]; exfalso; apply (Qlt_irrefl 0).
      - pose proof (dyadic_neg M E H) as Q. rewrite V in Q. exact Q.
      - pose proof (dyadic_pos M E H) as Q. rewrite V in Q. exact Q. }
    subst. split; [reflexivity|]. exists 0%Q. split; reflexivity.
  - destruct (int_representable z N A) as (s & m & e & B & VM & _).
    assert (MN : M <> 0). { intros ->. rewrite dyadic_zero in V. apply N. unfold Qeq in V. cbn in V. lia. }
    rewrite (normalize_exact M E s0 s m e B MN) by (rewrite V, VM; reflexivity). split; [exact B|].
    eexists. split; [reflexivity|]. exact VM.
Qed.

Lemma cast_num_small : forall i, Z.abs i <= 2 ^ 53 -> valid (cast_num i) /\ fin_is (cast_num i) i.
Proof. intros i H. apply normalize_int; [assumption|]. symmetry. apply inject_dyadic. Qed.

Lemma minint_flt : cast_num minint = S754_finite true 4503599627370496 11. Proof. reflexivity. Qed.

Lemma lt_ok : forall a b, valid a -> valid b -> flt_lt a b = true <-> exists x y, fval a = Some x /\ fval b = Some y /\ elt x y.
Proof.
  intros a b Va Vb. pose proof (SFcompare_ok a b Va Vb) as H. unfold flt_lt, SFltb.
  destruct (SFcompare a b) as [[]|]; destruct (fval a) as [x|]; destruct (fval b) as [y|]; cbn [cmp_ok] in H; try contradiction.
  all: try (split; [discriminate|intros (x' & y' & E1 & E2 & L); try discriminate]).
  - injection E1 as <-. injection E2 as <-. exfalso. destruct x, y; cbn in *; try contradiction. rewrite H in L. apply (Qlt_irrefl q0). assumption.
  - split; [|reflexivity]. intros _. exists x, y. auto.
  - injection E1 as <-. injection E2 as <-. exfalso. destruct x, y; cbn in *; try contradiction. apply (Qlt_irrefl q). eapply Qlt_trans; eassumption.
Qed.
Lemma eq_ok : forall a b, valid a -> valid b -> flt_eq a b = true <-> exists x y, fval a = Some x /\ fval b = Some y /\ eeq x y.
Proof.
  intros a b Va Vb. pose proof (SFcompare_ok a b Va Vb) as H. unfold flt_eq, SFeqb.
  destruct (SFcompare a b) as [[]|]; destruct (fval a) as [x|]; destruct (fval b) as [y|]; cbn [cmp_ok] in H; try contradiction.
  all: try (split; [discriminate|intros (x' & y' & E1 & E2 & L); try discriminate]).
  - split; [|reflexivity]. intros _. exists x, y. auto.
  - injection E1 as <-. injection E2 as <-. exfalso. destruct x, y; cbn in *; try contradiction. rewrite L in H. apply (Qlt_irrefl q0). assumption.
  - injection E1 as <-. injection E2 as <-. exfalso. destruct x, y; cbn in *; try contradiction. rewrite L in H. apply (Qlt_irrefl q0). assumption.
Qed.
Lemma le_or : forall a b, flt_le a b = flt_lt a b || flt_eq a b.
Proof. intros. unfold flt_le, flt_lt, flt_eq, SFleb, SFltb, SFeqb. destruct (SFcompare a b) as [[]|]; reflexivity. Qed.
Lemma le_ok : forall a b, valid a -> valid b -> flt_le a b = true <-> exists x y, fval a = Some x /\ fval b = Some y /\ ele x y.
Proof.
  intros a b Va Vb. rewrite le_or, orb_true_iff, (lt_ok a b Va Vb), (eq_ok a b Va Vb). split.
  - intros [(x & y & A & B & C)|(x & y & A & B & C)]; exists x, y; (split; [assumption|]; split; [assumption|]); [left|right]; assumption.
  - intros (x & y & A & B & [C|C]); [left|right]; exists x, y; auto.
Qed.
