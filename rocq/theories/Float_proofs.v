Require Import ZArith QArith List Bool Lia.
From Coq Require Import Floats.SpecFloat.
From Verif Require Import Base Base_facts Float_model Float_spec Float_facts.
Open Scope Z_scope.

Lemma inject_inj : forall a b, (inject_Z a == inject_Z b)%Q <-> a = b.
Proof. intros. unfold Qeq, inject_Z. cbn [Qnum Qden]. lia. Qed.
Lemma inject_lt : forall a b, (inject_Z a < inject_Z b)%Q <-> a < b.
Proof. intros. unfold Qlt, inject_Z. cbn [Qnum Qden]. lia. Qed.
Lemma inject_le : forall a b, (inject_Z a <= inject_Z b)%Q <-> a <= b.
Proof. intros. unfold Qle, inject_Z. cbn [Qnum Qden]. lia. Qed.

Lemma dyadic_int : forall m e z, (dyadic m e == inject_Z z)%Q -> (0 <= e -> m * 2 ^ e = z) /\ (e < 0 -> m = z * 2 ^ (- e)).
Proof.
  intros m e z H. unfold dyadic in H. split; intros E.
  - rewrite (proj2 (Z.leb_le 0 e) E) in H. apply (proj1 (inject_inj _ _)) in H. assumption.
  - rewrite (proj2 (Z.leb_gt 0 e) E) in H. unfold Qeq, inject_Z in H. cbn [Qnum Qden] in H.
    rewrite Z2Pos.id in H by (apply Z.pow_pos_nonneg; lia). lia.
Qed.

Lemma f2i_int : forall f z, fin_is f z -> is_s64 z -> f2i f = Ok z.
Proof.
  intros f z (q & E & V) S. unfold is_s64 in S. destruct f as [s|s| |s m e]; cbn [fval] in E; try discriminate; try (destruct s; discriminate).
  - injection E as <-. change 0%Q with (inject_Z 0) in V. apply (proj1 (inject_inj _ _)) in V. subst. reflexivity.
  - injection E as <-. fold (sgn_m s m) in V. apply dyadic_int in V. destruct V as [V1 V2].
    assert (T : trunc_Z s m e = z).
    { unfold trunc_Z. destruct (Z.leb_spec 0 e); [apply V1; assumption|]. rewrite V2 by assumption.
      apply Z.quot_mul. pose proof (Z.pow_pos_nonneg 2 (- e) ltac:(lia) ltac:(lia)). lia. }
    unfold f2i. rewrite T. cbv zeta. destruct (Z.leb_spec minint z); [|lia]. destruct (Z.leb_spec z maxint); [reflexivity|lia].
Qed.

Lemma minint_val : valid (cast_num minint) /\ fin_is (cast_num minint) minint.
Proof. split; [reflexivity|]. rewrite minint_flt. eexists. split; [reflexivity|]. reflexivity. Qed.
Lemma two63_val : valid (fneg (cast_num minint)) /\ fin_is (fneg (cast_num minint)) two63.
Proof. split; [reflexivity|]. rewrite minint_flt. eexists. split; [reflexivity|]. reflexivity. Qed.

Lemma cmp_int_lt : forall f z g y, valid f -> valid g -> fin_is f z -> fin_is g y -> flt_lt f g = (z <? y).
Proof.
  intros f z g y Vf Vg (q & E & V) (p & E2 & V2). apply Bool.eq_iff_eq_true. rewrite (lt_ok f g Vf Vg), Z.ltb_lt. split.
  - intros (a & b & A & B & L). rewrite E in A. rewrite E2 in B. injection A as <-. injection B as <-. cbn [elt] in L.
    rewrite V, V2 in L. apply (proj1 (inject_lt _ _)). assumption.
  - intros L. exists (Fin q), (Fin p). split; [assumption|]. split; [assumption|]. cbn [elt]. rewrite V, V2. apply (proj2 (inject_lt _ _)). assumption.
Qed.
Lemma cmp_int_eq : forall f z g y, valid f -> valid g -> fin_is f z -> fin_is g y -> flt_eq f g = (z =? y).
Proof.
  intros f z g y Vf Vg (q & E & V) (p & E2 & V2). apply Bool.eq_iff_eq_true. rewrite (eq_ok f g Vf Vg), Z.eqb_eq. split.
  - intros (a & b & A & B & L). rewrite E in A. rewrite E2 in B. injection A as <-. injection B as <-. cbn [eeq] in L.
    rewrite V, V2 in L. apply (proj1 (inject_inj _ _)). assumption.
  - intros L. exists (Fin q), (Fin p). split; [assumption|]. split; [assumption|]. cbn [eeq]. rewrite V, V2. apply (proj2 (inject_inj _ _)). assumption.
Qed.
Lemma cmp_int_le : forall f z g y, valid f -> valid g -> fin_is f z -> fin_is g y -> flt_le f g = (z <=? y).
Proof.
  intros. rewrite le_or, (cmp_int_lt f z g y), (cmp_int_eq f z g y) by assumption.
  destruct (Z.ltb_spec z y); destruct (Z.eqb_spec z y); destruct (Z.leb_spec z y); cbn; lia.
Qed.

Definition in64 (z : Z) : bool := (minint <=? z) && (z <=? maxint).
Lemma in64_iff : forall z, in64 z = true <-> is_s64 z.
Proof. intros. unfold in64, is_s64. rewrite andb_true_iff, !Z.leb_le. lia. Qed.

Lemma n2i_int : forall f z, valid f -> fin_is f z -> numbertointeger f = Ok (if in64 z then Some z else None).
Proof.
  intros f z Vf F. destruct minint_val as [V1 F1]. destruct two63_val as [V2 F2]. unfold numbertointeger.
  rewrite (cmp_int_le _ _ _ _ V1 Vf F1 F), (cmp_int_lt _ _ _ _ Vf V2 F F2). destruct (in64 z) eqn:I.
  - pose proof (proj1 (in64_iff z) I) as S. unfold is_s64 in S. destruct (Z.leb_spec minint z); [|lia].
    destruct (Z.ltb_spec z two63); [|unfold_consts; lia]. cbn [andb]. rewrite (f2i_int f z F S). reflexivity.
  - destruct (Z.leb_spec minint z); destruct (Z.ltb_spec z two63); cbn [andb]; try reflexivity.
    exfalso. assert (in64 z = true) by (apply in64_iff; unfold is_s64; unfold_consts; lia). congruence.
Qed.
Lemma n2i_none : forall f, valid f -> (forall q, fval f <> Some (Fin q)) -> numbertointeger f = Ok None.
Proof.
  intros f Vf N. destruct f as [s|[]| |s m e]; try reflexivity; exfalso; eapply N; reflexivity.
Qed.

(* ---- floor ---- *)
Lemma floor_fin : forall f q, valid f -> fval f = Some (Fin q) ->
  exists z, valid (l_floor f) /\ fin_is (l_floor f) z /\ (inject_Z z <= q)%Q /\ (q < inject_Z (z + 1))%Q /\
  ((q == inject_Z z)%Q \/ Z.abs z <= 2 ^ 52).
Proof.
  intros f q Vf E. destruct f as [s|[]| |s m e]; cbn [fval] in E; try discriminate.
  - injection E as <-. exists 0. split; [reflexivity|]. split; [exists 0%Q; split; reflexivity|].
    change 0%Q with (inject_Z 0). rewrite inject_le, inject_lt, inject_inj. lia.
  - injection E as <-. fold (sgn_m s m). unfold l_floor. destruct (Z.leb_spec 0 e) as [L|L].
    + exists (sgn_m s m * 2 ^ e). assert (V : (dyadic (sgn_m s m) e == inject_Z (sgn_m s m * 2 ^ e))%Q).
      { unfold dyadic. destruct (Z.leb_spec 0 e); [reflexivity|lia]. }
      split; [exact Vf|]. split; [eexists; split; [reflexivity|exact V]|]. rewrite V, inject_le, inject_lt, inject_inj. lia.
    + set (z := floor_Z s m e). exists z.
      pose proof (Z.pow_pos_nonneg 2 (- e) ltac:(lia) ltac:(lia)) as P.
      assert (ZD : z = sgn_m s m / 2 ^ (- e)) by (unfold z, floor_Z; destruct (Z.leb_spec 0 e); [lia|reflexivity]).
      assert (B : - 2 ^ 53 < sgn_m s m < 2 ^ 53).
      { destruct (bounded_mant m e Vf) as [M _]. unfold sgn_m. destruct s; lia. }
      assert (P2 : 2 <= 2 ^ (- e)) by (replace 2 with (2 ^ 1) at 1 by reflexivity; apply Z.pow_le_mono_r; lia).
      pose proof (Z.div_mod (sgn_m s m) (2 ^ (- e)) ltac:(lia)) as DM. pose proof (Z.mod_pos_bound (sgn_m s m) (2 ^ (- e)) P) as MB.
      rewrite <- ZD in DM.
      assert (ZB : Z.abs z <= 2 ^ 52) by (change (2 ^ 53) with (2 * 2 ^ 52) in B; nia).
      assert (LE : (inject_Z z <= dyadic (sgn_m s m) e)%Q).
      { rewrite inject_dyadic, Qle_cmp, (dyadic_compare _ _ _ _ e) by lia. rewrite Z.sub_diag, Z.pow_0_r, Z.mul_1_r.
        replace (0 - e) with (- e) by lia. apply Z.compare_ngt_iff. lia. }
      assert (LT : (dyadic (sgn_m s m) e < inject_Z (z + 1))%Q).
      { rewrite inject_dyadic, Qlt_cmp, (dyadic_compare _ _ _ _ e) by lia. rewrite Z.sub_diag, Z.pow_0_r, Z.mul_1_r.
        replace (0 - e) with (- e) by lia. apply Z.compare_lt_iff. lia. }
      destruct (normalize_int z 0 s z) as [NV NF]; [lia|symmetry; apply inject_dyadic|].
      split; [exact NV|]. split; [exact NF|]. split; [assumption|]. split; [assumption|]. right. assumption.
Qed.
Lemma floor_nofin : forall f, (forall q, fval f <> Some (Fin q)) -> l_floor f = f.
Proof. intros f N. destruct f as [s|[]| |s m e]; try reflexivity. exfalso. eapply N. reflexivity. Qed.

Lemma fadd_one : forall f z, valid f -> fin_is f z -> Z.abs z <= 2 ^ 52 -> valid (fadd f fone) /\ fin_is (fadd f fone) (z + 1).
Proof.
  intros f z Vf (q & E & V) A. assert (A1 : Z.abs (z + 1) <= 2 ^ 53) by (change (2 ^ 53) with (2 * 2 ^ 52); lia).
  change fone with (S754_finite false 4503599627370496 (-52)). unfold fadd.
  destruct f as [s|[]| |s m e]; cbn [fval] in E; try discriminate.
  - injection E as <-. change 0%Q with (inject_Z 0) in V. apply (proj1 (inject_inj _ _)) in V. subst z. cbn [SFadd]. split; [reflexivity|].
    eexists. split; [reflexivity|]. reflexivity.
  - injection E as <-. fold (sgn_m s m) in V. cbn [SFadd]. apply normalize_int; [assumption|].
    set (k := Z.min e (-52)).
    assert (SH : forall p x, k <= x -> Z.pos (fst (shl_align p x k)) = Z.pos p * 2 ^ (x - k)).
    { intros p x K. unfold shl_align. destruct (k - x) as [|d|d] eqn:D; try lia; cbn [fst].
      - replace (x - k) with 0 by lia. rewrite Z.pow_0_r. lia.
      - rewrite shift_pos_correct. replace (x - k) with (Z.pos d) by lia. rewrite Z.mul_comm. reflexivity. }
    rewrite (SH m e) by lia. rewrite (SH _ (-52)) by lia. cbn [cond_Zopp].
    replace (cond_Zopp s (Z.pos m * 2 ^ (e - k))) with (sgn_m s m * 2 ^ (e - k)) by (destruct s; cbn [cond_Zopp sgn_m]; [change (Z.neg m) with (- Z.pos m)|]; lia).
    assert (K : k <= 0) by lia.
    assert (V' : sgn_m s m * 2 ^ (e - k) = z * 2 ^ (- k)).
    { rewrite inject_dyadic, Qeq_cmp, (dyadic_compare _ _ _ _ k) in V by lia. apply Z.compare_eq in V. rewrite V. f_equal. }
    assert (W : 4503599627370496 * 2 ^ (-52 - k) = 2 ^ (- k)).
    { change 4503599627370496 with (2 ^ 52). rewrite <- Z.pow_add_r by lia. f_equal. lia. }
    rewrite V', W. replace (z * 2 ^ (- k) + 2 ^ (- k)) with ((z + 1) * 2 ^ (- k)) by lia.
    rewrite inject_dyadic. rewrite (dyadic_shift (z + 1) 0 k) by lia. replace (0 - k) with (- k) by lia. reflexivity.
Qed.

(* ---- conversion ---- *)

Lemma flttointeger_fin : forall f q mode, valid f -> fval f = Some (Fin q) ->
  exists o, flttointeger f mode = Ok o /\
  (forall z, o = Some z <-> fzval f mode z /\ is_s64 z).
Proof.
  intros f q mode Vf E. destruct (floor_fin f q Vf E) as (z & V1 & F1 & L1 & U1 & SM). unfold flttointeger.
  assert (UF : forall y, is_floor f y <-> y = z).
  { intros y. split.
    - intros (q' & E' & A & B). rewrite E in E'. injection E' as <-.
      assert (inject_Z y < inject_Z (z + 1))%Q as X1 by (eapply Qle_lt_trans; eassumption).
      assert (inject_Z z < inject_Z (y + 1))%Q as X2 by (eapply Qle_lt_trans; eassumption).
      apply (proj1 (inject_lt _ _)) in X1. apply (proj1 (inject_lt _ _)) in X2. lia.
    - intros ->. exists q. auto. }
  assert (EQB : flt_eq f (l_floor f) = true <-> (q == inject_Z z)%Q).
  { rewrite (eq_ok f (l_floor f) Vf V1). destruct F1 as (p & P1 & P2). split.
    - intros (a & b & A & B & C). rewrite E in A. rewrite P1 in B. injection A as <-. injection B as <-. cbn [eeq] in C. rewrite C. assumption.
    - intros H. exists (Fin q), (Fin p). split; [assumption|]. split; [assumption|]. cbn [eeq]. rewrite H. symmetry. assumption. }
  destruct (flt_eq f (l_floor f)) eqn:B; cbn [negb].
  - assert (Q : (q == inject_Z z)%Q) by (apply EQB; reflexivity).
    rewrite (n2i_int _ _ V1 F1). eexists. split; [reflexivity|]. intros y.
    assert (U : fzval f mode y <-> y = z).
    { destruct mode; cbn [fzval].
      - split; [intros (q' & E' & A)|intros ->; exists q; auto]. rewrite E in E'. injection E' as <-. rewrite Q in A. apply (proj1 (inject_inj _ _)) in A. auto.
      - apply UF.
      - split; [intros (q' & E' & A & A2)|intros ->; exists q].
        + rewrite E in E'. injection E' as <-. rewrite Q in A. rewrite Q in A2. apply (proj1 (inject_lt _ _)) in A. apply (proj1 (inject_le _ _)) in A2. lia.
        + split; [assumption|]. rewrite Q, inject_lt, inject_le. lia. }
    rewrite U. destruct (in64 z) eqn:I.
    + apply in64_iff in I. split; [intros H; injection H as <-; auto|intros [-> _]; reflexivity].
    + split; [discriminate|]. intros [-> S]. apply in64_iff in S. congruence.
  - assert (Q : ~ (q == inject_Z z)%Q) by (rewrite <- EQB; discriminate).
    destruct SM as [SM|SM]; [contradiction|].
    assert (LT : (inject_Z z < q)%Q). { apply Qle_lteq in L1. destruct L1 as [L1|L1]; [assumption|]. exfalso. apply Q. symmetry. assumption. }
    destruct mode.
    + exists None. split; [reflexivity|]. intros y. split; [discriminate|]. intros [(q' & E' & A) _]. rewrite E in E'. injection E' as <-.
      exfalso. rewrite A in LT, U1. apply (proj1 (inject_lt _ _)) in LT. apply (proj1 (inject_lt _ _)) in U1. lia.
    + rewrite (n2i_int _ _ V1 F1). eexists. split; [reflexivity|]. intros y. cbn [fzval]. rewrite UF. destruct (in64 z) eqn:I.
      * apply in64_iff in I. split; [intros H; injection H as <-; auto|intros [-> _]; reflexivity].
      * split; [discriminate|]. intros [-> S]. apply in64_iff in S. congruence.
    + destruct (fadd_one _ _ V1 F1 SM) as [V2 F2]. rewrite (n2i_int _ _ V2 F2). eexists. split; [reflexivity|]. intros y.
      assert (UC : is_ceil f y <-> y = z + 1).
      { split.
        - intros (q' & E' & A & A2). rewrite E in E'. injection E' as <-.
          assert (inject_Z (y - 1) < inject_Z (z + 1))%Q as X1 by (eapply Qlt_trans; eassumption).
          assert (inject_Z z < inject_Z y)%Q as X2 by (eapply Qlt_le_trans; eassumption).
          apply (proj1 (inject_lt _ _)) in X1. apply (proj1 (inject_lt _ _)) in X2. lia.
        - intros ->. exists q. split; [assumption|]. replace (z + 1 - 1) with z by lia. split; [assumption|]. apply Qlt_le_weak. assumption. }
      cbn [fzval]. rewrite UC. destruct (in64 (z + 1)) eqn:I.
      * apply in64_iff in I. split; [intros H; injection H as <-; auto|intros [-> _]; reflexivity].
      * split; [discriminate|]. intros [-> S]. apply in64_iff in S. congruence.
Qed.
Lemma flttointeger_nofin : forall f mode, valid f -> (forall q, fval f <> Some (Fin q)) -> flttointeger f mode = Ok None.
Proof.
  intros f mode Vf N. unfold flttointeger. rewrite (floor_nofin f N). destruct (negb (flt_eq f f)).
  - destruct mode; [reflexivity|apply n2i_none; assumption|].
    destruct f as [s|[]| |s m e]; try reflexivity. exfalso. eapply N. reflexivity. exfalso. eapply N. reflexivity.
  - apply n2i_none; assumption.
Qed.

(* C04: conversion by the three modes is exact or refused *)
Theorem flttointeger_ok : forall f mode, valid f ->
  exists o, flttointeger f mode = Ok o /\ forall z, o = Some z <-> fzval f mode z /\ is_s64 z.
Proof.
  intros f mode Vf. destruct (fval f) as [[|q|]|] eqn:E.
  2: { eapply flttointeger_fin; eassumption. }
  all: rewrite flttointeger_nofin by (auto; intros q Q; rewrite E in Q; discriminate); exists None; split; [reflexivity|];
    intros z; split; [discriminate|]; intros [H _]; destruct mode; destruct H as (q & Q & _); rewrite E in Q; discriminate.
Qed.

(* math.floor and math.ceil: always succeed; the value is the floor or ceiling as an integer when it fits, else as a float *)
Lemma pushnumint_ok : forall d z, valid d -> fin_is d z -> exists v, pushnumint d = Ok v /\ wfnum v /\ num_is v z /\ (is_s64 z -> v = NInt z).
Proof.
  intros d z Vd F. unfold pushnumint. rewrite (n2i_int d z Vd F). cbn [bind]. destruct (in64 z) eqn:I.
  - exists (NInt z). split; [reflexivity|]. apply in64_iff in I. split; [assumption|]. split; [|reflexivity].
    eexists. split; [reflexivity|]. reflexivity.
  - exists (NFlt d). split; [reflexivity|]. split; [assumption|]. split; [exact F|]. intros S. apply in64_iff in S. congruence.
Qed.
Lemma floor_u : forall q a b, (inject_Z a <= q)%Q -> (q < inject_Z (a + 1))%Q -> (inject_Z b <= q)%Q -> (q < inject_Z (b + 1))%Q -> a = b.
Proof.
  intros. assert (inject_Z a < inject_Z (b + 1))%Q as X by (eapply Qle_lt_trans; eassumption).
  assert (inject_Z b < inject_Z (a + 1))%Q as Y by (eapply Qle_lt_trans; eassumption). apply (proj1 (inject_lt _ _)) in X. apply (proj1 (inject_lt _ _)) in Y. lia.
Qed.
Theorem math_floor_ok : forall f z, valid f -> is_floor f z ->
  exists v, math_floor (NFlt f) = Ok v /\ wfnum v /\ num_is v z /\ (is_s64 z -> v = NInt z).
Proof.
  intros f z Vf (q & E & A & B). destruct (floor_fin f q Vf E) as (y & V1 & F1 & L1 & U1 & _).
  assert (y = z) by (eapply floor_u; eassumption). subst. cbn [math_floor]. apply pushnumint_ok; assumption.
Qed.
Lemma valid_neg : forall f, valid f -> valid (fneg f).
Proof. intros f H. destruct f; exact H || reflexivity. Qed.
Lemma fneg_val : forall f q, fval f = Some (Fin q) -> exists p, fval (fneg f) = Some (Fin p) /\ (p == - q)%Q.
Proof.
  intros f q E. destruct f as [s|[]| |s m e]; cbn [fval fneg SFopp] in *; try discriminate.
  - injection E as <-. exists 0%Q. split; reflexivity.
  - injection E as <-. eexists. split; [reflexivity|]. rewrite <- dyadic_opp. destruct s; reflexivity.
Qed.
Theorem math_ceil_ok : forall f z, valid f -> is_ceil f z ->
  exists v, math_ceil (NFlt f) = Ok v /\ wfnum v /\ num_is v z /\ (is_s64 z -> v = NInt z).
Proof.
  intros f z Vf (q & E & A & B). destruct (fneg_val f q E) as (p & EP & P).
  destruct (floor_fin (fneg f) p (valid_neg f Vf) EP) as (y & V1 & F1 & L1 & U1 & _).
  assert (y = - z).
  { apply (floor_u p y (- z)); try assumption.
    - rewrite P, inject_Z_opp. apply Qopp_le_compat. assumption.
    - rewrite P. replace (- z + 1) with (- (z - 1)) by lia. rewrite inject_Z_opp. apply Qopp_lt_compat. assumption. }
  subst. cbn [math_ceil]. unfold l_ceil. apply pushnumint_ok.
  - apply valid_neg. assumption.
  - destruct F1 as (r & R1 & R2). destruct (fneg_val _ _ R1) as (t & T1 & T2). exists t. split; [assumption|].
    rewrite T2, R2, inject_Z_opp, Qopp_opp. reflexivity.
Qed.
(* on the infinities and NaN they return the argument *)
Theorem math_floor_special : forall f, valid f -> (forall q, fval f <> Some (Fin q)) ->
  math_floor (NFlt f) = Ok (NFlt f) /\ math_ceil (NFlt f) = Ok (NFlt f).
Proof.
  intros f V N. destruct f as [s|[]| |s m e]; try (exfalso; eapply N; reflexivity); split; reflexivity.
Qed.

(* every finite float has a floor and a ceiling, so the theorems above cover all floats *)
Theorem floor_ceil_exist : forall f q, valid f -> fval f = Some (Fin q) -> (exists z, is_floor f z) /\ (exists z, is_ceil f z).
Proof.
  intros f q V E. destruct (floor_fin f q V E) as (z & _ & _ & L & U & _). split.
  - exists z, q. auto.
  - apply Qle_lteq in L. destruct L as [L|L].
    + exists (z + 1), q. split; [assumption|]. replace (z + 1 - 1) with z by lia. split; [assumption|apply Qlt_le_weak; assumption].
    + exists z, q. split; [assumption|]. rewrite <- L, inject_lt, inject_le. lia.
Qed.

(* ---- C03: comparisons ---- *)
Lemma intfits : forall i, is_s64 i -> l_intfitsf i = true -> Z.abs i <= 2 ^ 53.
Proof.
  intros i S H. unfold l_intfitsf, is_s64 in *. apply Z.leb_le in H. change MAXINTFITSF with (2 ^ 53) in H.
  unfold u64 in H. unfold two64 in *. unfold_consts. destruct (Z.ltb_spec i 0).
  - rewrite <- (Z.mod_add i 1) in H by lia. rewrite (Z.mod_small (i + _)) in H by lia.
    destruct (Z.le_gt_cases (- 2 ^ 53) i); [lia|]. rewrite Z.mod_small in H by lia. lia.
  - rewrite (Z.mod_small i) in H by lia. rewrite Z.mod_small in H by lia. lia.
Qed.

Lemma conv_some : forall f mode o, valid f -> flttointeger f mode = Ok o -> forall z, o = Some z -> fzval f mode z.
Proof.
  intros f mode o V E z Z. destruct (flttointeger_ok f mode V) as (o' & E' & S). rewrite E in E'. injection E' as <-. apply S in Z. tauto.
Qed.

(* where the conversion fails the float is beyond all integers, or NaN *)
Lemma conv_none : forall f mode i, valid f -> is_s64 i -> ~ (Z.abs i <= 2 ^ 53) -> mode <> F2Ieq -> flttointeger f mode = Ok None ->
  (flt_lt fzero f = true <-> exists x, fval f = Some x /\ elt (Fin (inject_Z i)) x) /\
  (flt_lt f fzero = true <-> exists x, fval f = Some x /\ elt x (Fin (inject_Z i))) /\
  (forall x, fval f = Some x -> ~ eeq (Fin (inject_Z i)) x).
Proof.
  intros f mode i V S Big M E. rewrite (lt_ok fzero f eq_refl V), (lt_ok f fzero V eq_refl).
  destruct (fval f) as [[|q|]|] eqn:EV.
  1, 3, 4: cbn [fval fzero]; split; [|split]; [split|split|]; intros;
    repeat match goal with
    | H : exists _, _ |- _ => destruct H
    | H : _ /\ _ |- _ => destruct H
    | H : Some _ = Some _ |- _ => injection H as H; subst
    | H : None = Some _ |- _ => discriminate
    end; cbn [elt eeq] in *; try contradiction; try tauto;
    try (eexists; split; [reflexivity|exact I]); try (do 2 eexists; split; [reflexivity|]; split; [reflexivity|exact I]).
  destruct (flttointeger_ok f mode V) as (o & EO & SO). rewrite E in EO. injection EO as <-.
  destruct (floor_ceil_exist f q V EV) as [[zf ZF] [zc ZC]].
  assert (NF : forall z, fzval f mode z -> ~ is_s64 z) by (intros z A B; assert (@None Z = Some z) by (apply SO; auto); discriminate).
  destruct ZF as (q1 & E1 & F1 & F2). destruct ZC as (q2 & E2 & C1 & C2). rewrite EV in E1, E2. injection E1 as <-. injection E2 as <-.
  assert (Hz : (zf < minint \/ maxint < zf) /\ (zc < minint \/ maxint < zc) /\ (zf = zc \/ zc = zf + 1)).
  { assert (Z1 : (inject_Z (zc - 1) < inject_Z (zf + 1))%Q) by (eapply Qlt_trans; eassumption).
    assert (Z2 : (inject_Z zf <= inject_Z zc)%Q) by (eapply Qle_trans; eassumption). apply (proj1 (inject_lt _ _)) in Z1. apply (proj1 (inject_le _ _)) in Z2.
    assert (K : zf = zc \/ zc = zf + 1) by lia. split; [|split; [|assumption]]; destruct mode; try congruence.
    - assert (~ is_s64 zf) by (apply NF; exists q; auto). unfold is_s64 in *. lia.
    - assert (~ is_s64 zc) by (apply NF; exists q; auto). unfold is_s64 in *.
      (* zc outside; zf could be maxint only if q is between maxint and maxint+1, impossible for a float with 53 bits *)
      destruct (Z.lt_ge_cases zf minint); [left; assumption|]. destruct (Z.lt_ge_cases maxint zf); [right; assumption|]. exfalso.
      assert (zf = maxint /\ zc = zf + 1) by lia. destruct (floor_fin f q V EV) as (y & _ & _ & L & U & SM).
      assert (y = zf) by (eapply floor_u; eassumption). subst y. destruct SM as [SM|SM]; [|unfold_consts; lia].
      rewrite SM in C1. apply (proj1 (inject_lt _ _)) in C1. lia.
    - assert (~ is_s64 zf) by (apply NF; exists q; auto). unfold is_s64 in *.
      destruct (Z.lt_ge_cases zc minint); [left; assumption|]. destruct (Z.lt_ge_cases maxint zc); [right; assumption|]. exfalso.
      assert (zc = minint /\ zc = zf + 1) by lia. destruct (floor_fin f q V EV) as (y & _ & _ & L & U & SM).
      assert (y = zf) by (eapply floor_u; eassumption). subst y. destruct SM as [SM|SM]; [|unfold_consts; lia].
      rewrite SM in C1. apply (proj1 (inject_lt _ _)) in C1. lia.
    - assert (~ is_s64 zc) by (apply NF; exists q; auto). unfold is_s64 in *. lia. }
  destruct Hz as (H1 & H2 & H3).
  assert (Case : (maxint < zf /\ maxint < zc) \/ (zf < minint /\ zc < minint)) by (unfold_consts; lia). clear H1 H2 H3 NF SO E M.
  unfold is_s64 in S. destruct Case as [[B1 B2]|[B1 B2]].
  - assert (G : (inject_Z i < q)%Q) by (eapply Qlt_le_trans; [|exact F1]; apply (proj2 (inject_lt _ _)); lia).
    assert (G0 : (0 < q)%Q) by (eapply Qlt_le_trans; [|exact F1]; change 0%Q with (inject_Z 0); apply (proj2 (inject_lt _ _)); unfold_consts; lia).
    split; [|split].
    + split; intros _; [exists (Fin q)|exists (Fin 0), (Fin q)]; repeat split; assumption.
    + split; intros (x & R).
      * destruct R as (b & A & B & C). injection A as <-. injection B as <-. cbn [elt eeq] in C. exfalso. exact (Qlt_irrefl q (Qlt_trans _ _ _ C G0)).
      * destruct R as [A C]. injection A as <-. cbn [elt eeq] in C. exfalso. exact (Qlt_irrefl q (Qlt_trans _ _ _ C G)).
    + intros x A C. injection A as <-. cbn [elt eeq] in C. rewrite C in G. apply (Qlt_irrefl q). assumption.
  - assert (G : (q < inject_Z i)%Q) by (eapply Qle_lt_trans; [exact C2|]; apply (proj2 (inject_lt _ _)); lia).
    assert (G0 : (q < 0)%Q) by (eapply Qle_lt_trans; [exact C2|]; change 0%Q with (inject_Z 0); apply (proj2 (inject_lt _ _)); unfold_consts; lia).
    split; [|split].
    + split; intros (x & R).
      * destruct R as (b & A & B & C). injection A as <-. injection B as <-. cbn [elt eeq] in C. exfalso. exact (Qlt_irrefl q (Qlt_trans _ _ _ G0 C)).
      * destruct R as [A C]. injection A as <-. cbn [elt eeq] in C. exfalso. exact (Qlt_irrefl q (Qlt_trans _ _ _ G C)).
    + split; intros _; [exists (Fin q)|exists (Fin q), (Fin 0)]; repeat split; assumption.
    + intros x A C. injection A as <-. cbn [elt eeq] in C. rewrite C in G. apply (Qlt_irrefl q). assumption.
Qed.

Lemma both_eq : forall r a b x y, nval a = Some x -> nval b = Some y -> (both r a b <-> r x y).
Proof.
  intros. unfold both. split.
  - intros (x' & y' & A & B & C). rewrite H in A. rewrite H0 in B. injection A as <-. injection B as <-. assumption.
  - intros. exists x, y. auto.
Qed.
Lemma both_nan : forall r a b, nval a = None \/ nval b = None -> ~ both r a b.
Proof. intros r a b H (x & y & A & B & _). destruct H; congruence. Qed.

Lemma elt_eq_l : forall p q x, (p == q)%Q -> (elt (Fin p) x <-> elt (Fin q) x).
Proof. intros p q x H. destruct x; cbn [elt]; try tauto. rewrite H. tauto. Qed.
Lemma elt_eq_r : forall p q x, (p == q)%Q -> (elt x (Fin p) <-> elt x (Fin q)).
Proof. intros p q x H. destruct x; cbn [elt]; try tauto. rewrite H. tauto. Qed.
Lemma eeq_eq_l : forall p q x, (p == q)%Q -> (eeq (Fin p) x <-> eeq (Fin q) x).
Proof. intros p q x H. destruct x; cbn [eeq]; try tauto. rewrite H. tauto. Qed.
Lemma eeq_sym : forall x y, eeq x y <-> eeq y x.
Proof. destruct x, y; cbn [eeq]; try tauto. split; intros; symmetry; assumption. Qed.

(* integer i against the float f, both ways *)
Lemma small_cmp : forall i f, Z.abs i <= 2 ^ 53 -> valid f ->
  (flt_lt (cast_num i) f = true <-> both elt (NInt i) (NFlt f)) /\
  (flt_le (cast_num i) f = true <-> both ele (NInt i) (NFlt f)) /\
  (flt_lt f (cast_num i) = true <-> both elt (NFlt f) (NInt i)) /\
  (flt_le f (cast_num i) = true <-> both ele (NFlt f) (NInt i)).
Proof.
  intros i f A V. destruct (cast_num_small i A) as (VC & p & P1 & P2).
  rewrite (lt_ok _ _ VC V), (le_ok _ _ VC V), (lt_ok _ _ V VC), (le_ok _ _ V VC). rewrite P1. unfold both, ele. cbn [nval].
  repeat split; intros (x & y & X & Y & R); injection X as <- || injection Y as <-.
  all: try (injection X as <-); try (injection Y as <-).
  all: do 2 eexists; (split; [first [reflexivity|eassumption]|]; split; [first [reflexivity|eassumption]|]).
  all: try rewrite (eeq_sym y) in *; try rewrite (eeq_sym x) in *.
  all: rewrite ?(elt_eq_l _ _ _ P2), ?(elt_eq_r _ _ _ P2), ?(eeq_eq_l _ _ _ P2) in *; try assumption.
  all: rewrite <- ?(elt_eq_l _ _ _ P2), <- ?(elt_eq_r _ _ _ P2), <- ?(eeq_eq_l _ _ _ P2); assumption.
Qed.
Lemma fits_dec : forall i, is_s64 i -> l_intfitsf i = false -> ~ Z.abs i <= 2 ^ 53.
Proof.
  intros i S H A. unfold l_intfitsf, is_s64 in *. apply Z.leb_gt in H. change MAXINTFITSF with (2 ^ 53) in H.
  unfold u64 in H. unfold two64 in *. unfold_consts. destruct (Z.ltb_spec i 0).
  - rewrite <- (Z.mod_add i 1) in H by lia. rewrite (Z.mod_small (i + _)) in H by lia.
    rewrite Z.add_assoc, Z.mod_add in H by lia. rewrite Z.mod_small in H by lia. lia.
  - rewrite (Z.mod_small i) in H by lia. rewrite Z.mod_small in H by lia. lia.
Qed.

Lemma ceil_lt : forall f z q i, is_ceil f z -> fval f = Some (Fin q) -> (i < z <-> (inject_Z i < q)%Q) /\ (z <= i <-> (q <= inject_Z i)%Q).
Proof.
  intros f z q i (q' & E & A & B) E'. rewrite E' in E. injection E as <-. split; split; intros H.
  - eapply Qle_lt_trans; [|exact A]. apply (proj2 (inject_le _ _)). lia.
  - apply (proj1 (inject_lt _ _)). eapply Qlt_le_trans; eassumption.
  - eapply Qle_trans; [exact B|]. apply (proj2 (inject_le _ _)). lia.
  - assert (X : (inject_Z (z - 1) < inject_Z i)%Q) by (eapply Qlt_le_trans; eassumption). apply (proj1 (inject_lt _ _)) in X. lia.
Qed.
Lemma floor_lt : forall f z q i, is_floor f z -> fval f = Some (Fin q) -> (i <= z <-> (inject_Z i <= q)%Q) /\ (z < i <-> (q < inject_Z i)%Q).
Proof.
  intros f z q i (q' & E & A & B) E'. rewrite E' in E. injection E as <-. split; split; intros H.
  - eapply Qle_trans; [|exact A]. apply (proj2 (inject_le _ _)). lia.
  - assert (X : (inject_Z i < inject_Z (z + 1))%Q) by (eapply Qle_lt_trans; eassumption). apply (proj1 (inject_lt _ _)) in X. lia.
  - eapply Qlt_le_trans; [exact B|]. apply (proj2 (inject_le _ _)). lia.
  - apply (proj1 (inject_lt _ _)). eapply Qle_lt_trans; eassumption.
Qed.

Lemma ele_fin : forall p q, ele (Fin p) (Fin q) <-> (p <= q)%Q.
Proof. intros. unfold ele. cbn [elt eeq]. symmetry. apply Qle_lteq. Qed.

Theorem LTnum_ok : forall a b, wfnum a -> wfnum b -> exists r, LTnum a b = Ok r /\ (r = true <-> both elt a b).
Proof.
  intros a b Wa Wb. destruct a as [i|f]; destruct b as [j|g]; cbn [LTnum wfnum] in *.
  - eexists. split; [reflexivity|]. rewrite (both_eq elt (NInt i) (NInt j) _ _ eq_refl eq_refl). cbn [elt]. rewrite inject_lt, Z.ltb_lt. tauto.
  - unfold LTintfloat. destruct (l_intfitsf i) eqn:F.
    + eexists. split; [reflexivity|]. apply small_cmp; [apply intfits|]; assumption.
    + pose proof (fits_dec i Wa F) as Big. destruct (flttointeger_ok g F2Iceil Wb) as (o & E & S). rewrite E. cbn [bind]. destruct o as [z|].
      * eexists. split; [reflexivity|]. destruct (proj1 (S z) eq_refl) as [C _]. destruct C as (q & Q & C). rewrite Z.ltb_lt.
        rewrite (both_eq elt (NInt i) (NFlt g) _ _ eq_refl Q). cbn [elt]. apply (ceil_lt g z q i); [exists q; auto|assumption].
      * eexists. split; [reflexivity|]. destruct (conv_none g F2Iceil i Wb Wa Big ltac:(discriminate) E) as (N1 & _ & _). rewrite N1.
        unfold both. cbn [nval]. split; [intros (x & X & L); exists (Fin (inject_Z i)), x; auto|intros (x & y & X & Y & L); injection X as <-; exists y; auto].
  - unfold LTfloatint. destruct (l_intfitsf j) eqn:F.
    + eexists. split; [reflexivity|]. apply small_cmp; [apply intfits|]; assumption.
    + pose proof (fits_dec j Wb F) as Big. destruct (flttointeger_ok f F2Ifloor Wa) as (o & E & S). rewrite E. cbn [bind]. destruct o as [z|].
      * eexists. split; [reflexivity|]. destruct (proj1 (S z) eq_refl) as [C _]. destruct C as (q & Q & C). rewrite Z.ltb_lt.
        rewrite (both_eq elt (NFlt f) (NInt j) _ _ Q eq_refl). cbn [elt]. apply (floor_lt f z q j); [exists q; auto|assumption].
      * eexists. split; [reflexivity|]. destruct (conv_none f F2Ifloor j Wa Wb Big ltac:(discriminate) E) as (_ & N1 & _). rewrite N1.
        unfold both. cbn [nval]. split; [intros (x & X & L); exists x, (Fin (inject_Z j)); auto|intros (x & y & X & Y & L); injection Y as <-; exists x; auto].
  - eexists. split; [reflexivity|]. apply (lt_ok f g Wa Wb).
Qed.

Theorem LEnum_ok : forall a b, wfnum a -> wfnum b -> exists r, LEnum a b = Ok r /\ (r = true <-> both ele a b).
Proof.
  intros a b Wa Wb. destruct a as [i|f]; destruct b as [j|g]; cbn [LEnum wfnum] in *.
  - eexists. split; [reflexivity|]. rewrite (both_eq ele (NInt i) (NInt j) _ _ eq_refl eq_refl), ele_fin, inject_le, Z.leb_le. tauto.
  - unfold LEintfloat. destruct (l_intfitsf i) eqn:F.
    + eexists. split; [reflexivity|]. apply small_cmp; [apply intfits|]; assumption.
    + pose proof (fits_dec i Wa F) as Big. destruct (flttointeger_ok g F2Ifloor Wb) as (o & E & S). rewrite E. cbn [bind]. destruct o as [z|].
      * eexists. split; [reflexivity|]. destruct (proj1 (S z) eq_refl) as [C _]. destruct C as (q & Q & C). rewrite Z.leb_le.
        rewrite (both_eq ele (NInt i) (NFlt g) _ _ eq_refl Q), ele_fin. apply (floor_lt g z q i); [exists q; auto|assumption].
      * eexists. split; [reflexivity|]. destruct (conv_none g F2Ifloor i Wb Wa Big ltac:(discriminate) E) as (N1 & _ & N2). rewrite N1.
        unfold both, ele. cbn [nval]. split; [intros (x & X & L); exists (Fin (inject_Z i)), x; auto|].
        intros (x & y & X & Y & [L|L]); injection X as <-; [exists y; auto|]. exfalso. eapply N2; eassumption.
  - unfold LEfloatint. destruct (l_intfitsf j) eqn:F.
    + eexists. split; [reflexivity|]. apply small_cmp; [apply intfits|]; assumption.
    + pose proof (fits_dec j Wb F) as Big. destruct (flttointeger_ok f F2Iceil Wa) as (o & E & S). rewrite E. cbn [bind]. destruct o as [z|].
      * eexists. split; [reflexivity|]. destruct (proj1 (S z) eq_refl) as [C _]. destruct C as (q & Q & C). rewrite Z.leb_le.
        rewrite (both_eq ele (NFlt f) (NInt j) _ _ Q eq_refl), ele_fin. apply (ceil_lt f z q j); [exists q; auto|assumption].
      * eexists. split; [reflexivity|]. destruct (conv_none f F2Iceil j Wa Wb Big ltac:(discriminate) E) as (_ & N1 & N2). rewrite N1.
        unfold both, ele. cbn [nval]. split; [intros (x & X & L); exists x, (Fin (inject_Z j)); auto|].
        intros (x & y & X & Y & [L|L]); injection Y as <-; [exists x; auto|]. exfalso. apply (N2 x X). apply eeq_sym. assumption.
  - eexists. split; [reflexivity|]. apply (le_ok f g Wa Wb).
Qed.

Lemma eq_mixed : forall i f, is_s64 i -> valid f -> exists o, flttointeger f F2Ieq = Ok o /\
  (match o with Some z => z =? i | None => false end = true <-> both eeq (NInt i) (NFlt f)).
Proof.
  intros i f S V. destruct (flttointeger_ok f F2Ieq V) as (o & E & SO). exists o. split; [assumption|]. destruct o as [z|].
  - destruct (proj1 (SO z) eq_refl) as [(q & Q & C) _]. rewrite Z.eqb_eq, (both_eq eeq (NInt i) (NFlt f) _ _ eq_refl Q). cbn [eeq].
    rewrite C, inject_inj. split; auto.
  - split; [discriminate|]. intros (x & y & X & Y & L). cbn [nval] in X, Y. injection X as <-. destruct y as [|q|]; cbn [eeq] in L; try contradiction.
    assert (None = Some i); [|discriminate]. apply SO. split; [|assumption]. exists q. split; [assumption|]. symmetry. assumption.
Qed.
Theorem EQnum_ok : forall a b, wfnum a -> wfnum b -> exists r, EQnum a b = Ok r /\ (r = true <-> both eeq a b).
Proof.
  intros a b Wa Wb. destruct a as [i|f]; destruct b as [j|g]; cbn [EQnum wfnum tointegerns bind] in *.
  - eexists. split; [reflexivity|]. rewrite (both_eq eeq (NInt i) (NInt j) _ _ eq_refl eq_refl). cbn [eeq]. rewrite inject_inj, Z.eqb_eq. tauto.
  - destruct (eq_mixed i g Wa Wb) as (o & E & S). rewrite E. cbn [bind]. destruct o as [z|].
    + eexists. split; [reflexivity|]. rewrite <- S. rewrite Z.eqb_sym. tauto.
    + eexists. split; [reflexivity|]. exact S.
  - destruct (eq_mixed j f Wb Wa) as (o & E & S). rewrite E. cbn [bind].
    assert (SY : both eeq (NInt j) (NFlt f) <-> both eeq (NFlt f) (NInt j)).
    { unfold both. split; intros (x & y & X & Y & L); exists y, x; (split; [assumption|]; split; [assumption|]; apply eeq_sym; assumption). }
    rewrite SY in S. destruct o as [z|].
    + eexists. split; [reflexivity|]. exact S.
    + eexists. split; [reflexivity|]. exact S.
  - eexists. split; [reflexivity|]. apply (eq_ok f g Wa Wb).
Qed.

(* ---- the order ---- *)
Lemma elt_irr : forall x, ~ elt x x.
Proof. destruct x; cbn [elt]; try tauto. apply Qlt_irrefl. Qed.
Lemma elt_trans : forall x y z, elt x y -> elt y z -> elt x z.
Proof. destruct x, y, z; cbn [elt]; try tauto. apply Qlt_trans. Qed.
Lemma eeq_trans : forall x y z, eeq x y -> eeq y z -> eeq x z.
Proof. destruct x, y, z; cbn [eeq]; try tauto. intros. rewrite H. assumption. Qed.
Lemma elt_eeq : forall x y z, elt x y -> eeq y z -> elt x z.
Proof. destruct x, y, z; cbn [elt eeq]; try tauto. intros A B. rewrite <- B. assumption. Qed.
Lemma eeq_elt : forall x y z, eeq x y -> elt y z -> elt x z.
Proof. destruct x, y, z; cbn [elt eeq]; try tauto. intros A B. rewrite A. assumption. Qed.
Lemma ext_tri : forall x y, elt x y \/ eeq x y \/ elt y x.
Proof.
  destruct x as [|p|], y as [|q|]; cbn [elt eeq]; auto. destruct (Q_dec p q) as [[H|H]|H]; auto.
Qed.

Lemma lt_holds : forall a b, wfnum a -> wfnum b -> (holds (LTnum a b) <-> both elt a b).
Proof. intros. destruct (LTnum_ok a b H H0) as (r & E & S). rewrite E, <- S. unfold holds. split; [intros X; injection X; auto|intros ->; reflexivity]. Qed.
Lemma le_holds : forall a b, wfnum a -> wfnum b -> (holds (LEnum a b) <-> both ele a b).
Proof. intros. destruct (LEnum_ok a b H H0) as (r & E & S). rewrite E, <- S. unfold holds. split; [intros X; injection X; auto|intros ->; reflexivity]. Qed.
Lemma eq_holds : forall a b, wfnum a -> wfnum b -> (holds (EQnum a b) <-> both eeq a b).
Proof. intros. destruct (EQnum_ok a b H H0) as (r & E & S). rewrite E, <- S. unfold holds. split; [intros X; injection X; auto|intros ->; reflexivity]. Qed.

Lemma not_nan_val : forall a, not_nan a -> exists x, nval a = Some x.
Proof.
  intros [i|f] N; cbn [nval]; [eexists; reflexivity|]. destruct f as [s|[]| |s m e]; cbn [fval]; try (eexists; reflexivity).
  exfalso. apply N. reflexivity.
Qed.

Theorem number_order : forall a b c, wfnum a -> wfnum b -> wfnum c -> not_nan a -> not_nan b -> not_nan c ->
  (* exactly one of a < b, a == b, b < a *)
  (holds (LTnum a b) \/ holds (EQnum a b) \/ holds (LTnum b a)) /\
  ~ (holds (LTnum a b) /\ holds (LTnum b a)) /\ ~ (holds (LTnum a b) /\ holds (EQnum a b)) /\
  (holds (LEnum a b) <-> holds (LTnum a b) \/ holds (EQnum a b)) /\
  (holds (LEnum a b) <-> ~ holds (LTnum b a)) /\
  (holds (LTnum a b) -> holds (LTnum b c) -> holds (LTnum a c)) /\
  (holds (EQnum a b) -> holds (EQnum b c) -> holds (EQnum a c)) /\
  (holds (EQnum a b) <-> holds (EQnum b a)) /\ holds (EQnum a a) /\
  (holds (EQnum a b) -> (holds (LTnum a c) <-> holds (LTnum b c)) /\ (holds (LTnum c a) <-> holds (LTnum c b))).
Proof.
  intros a b c Wa Wb Wc Na Nb Nc. destruct (not_nan_val a Na) as [x X]. destruct (not_nan_val b Nb) as [y Y]. destruct (not_nan_val c Nc) as [z Z].
  rewrite !lt_holds, !le_holds, !eq_holds by assumption.
  rewrite !(both_eq elt a b x y X Y), !(both_eq elt b a y x Y X), !(both_eq eeq a b x y X Y), (both_eq eeq b a y x Y X), !(both_eq ele a b x y X Y),
    !(both_eq elt b c y z Y Z), !(both_eq elt a c x z X Z), (both_eq elt c a z x Z X), (both_eq elt c b z y Z Y), (both_eq eeq b c y z Y Z),
    (both_eq eeq a c x z X Z), (both_eq eeq a a x x X X).
  clear. split; [destruct (ext_tri x y) as [H|[H|H]]; auto|].
  assert (IR := elt_irr x). assert (N1 : ~ (elt x y /\ elt y x)) by (intros [A B]; apply IR; eapply elt_trans; eassumption).
  assert (N2 : ~ (elt x y /\ eeq x y)) by (intros [A B]; apply (elt_irr y); eapply eeq_elt; [apply eeq_sym|]; eassumption).
  split; [assumption|]. split; [assumption|]. split; [reflexivity|]. split.
  { unfold ele. split.
    - intros [A|A] B; [tauto|]. apply IR. eapply eeq_elt; eassumption.
    - intros N. destruct (ext_tri x y) as [H|[H|H]]; tauto. }
  split; [apply elt_trans|]. split; [apply eeq_trans|]. split; [apply eeq_sym|]. split; [destruct x; cbn [eeq]; try exact I; reflexivity|].
  intros E. split; split; intros H.
  - eapply eeq_elt; [apply eeq_sym; eassumption|assumption].
  - eapply eeq_elt; eassumption.
  - eapply elt_eeq; eassumption.
  - eapply elt_eeq; [eassumption|apply eeq_sym; assumption].
Qed.

Theorem nan_order : forall a b, wfnum a -> wfnum b -> (~ not_nan a \/ ~ not_nan b) ->
  LTnum a b = Ok false /\ LEnum a b = Ok false /\ EQnum a b = Ok false.
Proof.
  intros a b Wa Wb N.
  assert (V : nval a = None \/ nval b = None).
  { assert (forall v, ~ not_nan v -> nval v = None).
    { intros v H. destruct v as [i|f]; [exfalso; apply H; discriminate|]. destruct f as [s|s| |s m e]; try (exfalso; apply H; discriminate). reflexivity. }
    destruct N; [left|right]; auto. }
  destruct (LTnum_ok a b Wa Wb) as (r1 & E1 & S1). destruct (LEnum_ok a b Wa Wb) as (r2 & E2 & S2). destruct (EQnum_ok a b Wa Wb) as (r3 & E3 & S3).
  rewrite E1, E2, E3. assert (F : forall r R, (r = true <-> both R a b) -> r = false).
  { intros r R H. destruct r; [|reflexivity]. exfalso. eapply both_nan; [exact V|apply H; reflexivity]. }
  rewrite (F _ _ S1), (F _ _ S2), (F _ _ S3). auto.
Qed.
