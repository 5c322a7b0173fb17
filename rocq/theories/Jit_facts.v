(* Facts about the generated C code. *)
Require Import ZArith List Bool Arith Lia QArith.
From Coq Require Import Floats.SpecFloat.
From Verif Require Import Base IntArith_model Float_model Float_spec Float_facts Float_proofs Op_model Jit_model Jit_spec.
Import ListNotations.
Open Scope Z_scope.

(* ---- the literals ---- *)
Lemma integral_cast : forall f z, valid f -> f <> S754_zero true -> integral f = Some z -> cast_num z = f.
Proof.
  intros f z V N H. destruct f as [s|s| |s m e]; cbn [integral] in H; try discriminate.
  - injection H as <-. destruct s; [congruence|reflexivity].
  - destruct (((0 <=? e) || (Z.pos m mod 2 ^ (- e) =? 0)) && (Z.abs (if 0 <=? e then sgn_m s m * 2 ^ e else sgn_m s m / 2 ^ (- e)) <? 10 ^ 17)) eqn:B; [|discriminate].
    injection H as H. apply andb_true_iff in B. destruct B as [B _].
    assert (E : (dyadic z 0 == dyadic (sgn_m s m) e)%Q).
    { destruct (0 <=? e) eqn:P.
      - apply Z.leb_le in P. rewrite (dyadic_shift (sgn_m s m) e 0 P), Z.sub_0_r, H. reflexivity.
      - apply Z.leb_gt in P. cbn [orb] in B. apply Z.eqb_eq in B.
        rewrite (dyadic_shift z 0 e) by lia. replace (0 - e) with (- e) by lia.
        assert (G : z * 2 ^ (- e) = sgn_m s m); [|rewrite G; reflexivity].
        assert (0 < 2 ^ (- e)) by (apply Z.pow_pos_nonneg; lia).
        apply Z.mod_divide in B; [|lia]. destruct B as [q B].
        rewrite <- H. destruct s; cbn [sgn_m].
        + change (Z.neg m) with (- Z.pos m). rewrite B. rewrite <- Z.mul_opp_l, Z.div_mul by lia. reflexivity.
        + rewrite B, Z.div_mul by lia. reflexivity. }
    assert (z <> 0).
    { intros ->. assert (dyadic (sgn_m s m) e == 0)%Q by (rewrite <- E; apply dyadic_zero).
      destruct s; cbn [sgn_m] in H0.
      - pose proof (dyadic_neg (Z.neg m) e ltac:(lia)). rewrite H0 in H1. apply (Qlt_irrefl 0 H1).
      - pose proof (dyadic_pos (Z.pos m) e ltac:(lia)). rewrite H0 in H1. apply (Qlt_irrefl 0 H1). }
    apply normalize_exact; [exact V|assumption|exact E].
Qed.
Lemma lit17_d : forall f, valid f -> f <> S754_zero true -> to_d (lit17 f) = f.
Proof.
  intros f V N. unfold lit17. destruct (integral f) as [z|] eqn:E; [|reflexivity].
  cbn [to_d]. apply integral_cast; assumption.
Qed.
Lemma integral_fin : forall f z, integral f = Some z -> fin_is f z.
Proof.
  intros f z H. destruct f as [s|s| |s m e]; cbn [integral] in H; try discriminate.
  - injection H as <-. exists 0%Q. split; [reflexivity|]. reflexivity.
  - destruct (((0 <=? e) || (Z.pos m mod 2 ^ (- e) =? 0)) && (Z.abs (if 0 <=? e then sgn_m s m * 2 ^ e else sgn_m s m / 2 ^ (- e)) <? 10 ^ 17)) eqn:B; [|discriminate].
    injection H as H. apply andb_true_iff in B. destruct B as [B _].
    exists (dyadic (sgn_m s m) e). split; [destruct s; reflexivity|].
    rewrite inject_dyadic.
    destruct (0 <=? e) eqn:P.
    + apply Z.leb_le in P. rewrite (dyadic_shift (sgn_m s m) e 0 P), Z.sub_0_r, H. reflexivity.
    + apply Z.leb_gt in P. cbn [orb] in B. apply Z.eqb_eq in B.
        rewrite (dyadic_shift z 0 e) by lia. replace (0 - e) with (- e) by lia.
        assert (G : z * 2 ^ (- e) = sgn_m s m); [|rewrite G; reflexivity].
        assert (0 < 2 ^ (- e)) by (apply Z.pow_pos_nonneg; lia).
        apply Z.mod_divide in B; [|lia]. destruct B as [q B].
        rewrite <- H. destruct s; cbn [sgn_m].
        * change (Z.neg m) with (- Z.pos m). rewrite B. rewrite <- Z.mul_opp_l, Z.div_mul by lia. reflexivity.
        * rewrite B, Z.div_mul by lia. reflexivity.
Qed.
(* a literal behaves as the float in the operators *)
Lemma lit17_bin_l : forall o f g, valid f -> f <> S754_zero true -> cbinop o (lit17 f) (VD g) = cbinop o (VD f) (VD g).
Proof.
  intros o f g V N. pose proof (lit17_d f V N) as E. destruct (lit17 f) as [z|h]; cbn [to_d] in E.
  - unfold cbinop. cbn [to_d]. rewrite E. reflexivity.
  - rewrite E. reflexivity.
Qed.
Lemma lit17_bin_r : forall o f g, valid f -> f <> S754_zero true -> cbinop o (VD g) (lit17 f) = cbinop o (VD g) (VD f).
Proof.
  intros o f g V N. pose proof (lit17_d f V N) as E. destruct (lit17 f) as [z|h]; cbn [to_d] in E.
  - unfold cbinop. cbn [to_d]. rewrite E. reflexivity.
  - rewrite E. reflexivity.
Qed.
Definition fcmp (o : ccmp) := match o with CLt => flt_lt | CLe => flt_le | CEq => flt_eq end.
Lemma lit17_cmp_l : forall o f g, valid f -> f <> S754_zero true -> ccmpop o (lit17 f) (VD g) = fcmp o f g.
Proof.
  intros o f g V N. pose proof (lit17_d f V N) as E. destruct (lit17 f) as [z|h]; cbn [to_d] in E; unfold ccmpop; cbn [to_d]; rewrite E; reflexivity.
Qed.
Lemma lit17_cmp_r : forall o f g, valid f -> f <> S754_zero true -> ccmpop o (VD g) (lit17 f) = fcmp o g f.
Proof.
  intros o f g V N. pose proof (lit17_d f V N) as E. destruct (lit17 f) as [z|h]; cbn [to_d] in E; unfold ccmpop; cbn [to_d]; rewrite E; reflexivity.
Qed.
Lemma lit17_cmp : forall o f g, valid f -> f <> S754_zero true -> valid g -> g <> S754_zero true ->
  ccmpop o (lit17 f) (lit17 g) = fcmp o f g.
Proof.
  intros o f g V N V' N'. destruct (lit17 g) as [y|g'] eqn:G.
  - assert (Y : integral g = Some y) by (unfold lit17 in G; destruct (integral g); [injection G as ->; reflexivity|discriminate]).
    destruct (lit17 f) as [x|f'] eqn:F.
    + assert (X : integral f = Some x) by (unfold lit17 in F; destruct (integral f); [injection F as ->; reflexivity|discriminate]).
      apply integral_fin in X, Y. unfold ccmpop, fcmp.
      destruct o; symmetry; [apply cmp_int_lt|apply cmp_int_le|apply cmp_int_eq]; assumption.
    + assert (f' = f) as -> by (pose proof (lit17_d f V N) as E; rewrite F in E; exact E).
      pose proof (lit17_d g V' N') as E. rewrite G in E. unfold ccmpop. rewrite E. reflexivity.
  - assert (g' = g) as -> by (pose proof (lit17_d g V' N') as E; rewrite G in E; exact E).
    apply lit17_cmp_l; assumption.
Qed.
