Require Import ZArith List Bool Lia.
From Verif Require Import Base Base_facts Str Str_facts Strcmp_model Strcmp_spec.
Import ListNotations.
Open Scope Z_scope.

Lemma segs_nonnil : forall s, segs s <> [].
Proof. destruct s as [|c t]; cbn [segs]; [discriminate|]. destruct (c =? 0); [discriminate|]. destruct (segs t); discriminate. Qed.

(* first segment and what follows its zero *)
Fixpoint seg1 (s : list Z) : list Z := match s with [] => [] | c :: t => if c =? 0 then [] else c :: seg1 t end.
Fixpoint rest1 (s : list Z) : option (list Z) := match s with [] => None | c :: t => if c =? 0 then Some t else rest1 t end.

Lemma segs_split : forall s, segs s = seg1 s :: match rest1 s with Some t => segs t | None => [] end.
Proof.
  induction s as [|c t IH]; [reflexivity|]. cbn [segs seg1 rest1]. destruct (c =? 0); [reflexivity|]. rewrite IH. reflexivity.
Qed.
Lemma split1 : forall s, match rest1 s with Some t => s = seg1 s ++ 0 :: t | None => s = seg1 s end.
Proof.
  induction s as [|c t IH]; [reflexivity|]. cbn [seg1 rest1]. destruct (Z.eqb_spec c 0) as [->|N]; [reflexivity|].
  destruct (rest1 t); cbn [app]; f_equal; assumption.
Qed.

Lemma cstr_ok : forall fuel s p, 0 <= p <= slen s -> (Z.to_nat (slen s - p) < fuel)%nat ->
  cstr fuel s p = Ok (seg1 (skipn (Z.to_nat p) s)).
Proof.
  induction fuel; intros s p H F; [lia|]. cbn [cstr]. destruct (skipn (Z.to_nat p) s) as [|c t] eqn:E.
  - assert (p = slen s). { pose proof (slen_skipn s p H) as L. rewrite E in L. unfold slen in *. cbn in L. lia. }
    subst. rewrite sbyte_end. cbn [bind]. reflexivity.
  - destruct (skipn_cons_Z s p c t ltac:(lia) E) as [E2 L]. rewrite sbyte_in by lia. cbn [bind].
    replace (nth (Z.to_nat p) s 0) with c.
    2: { replace (Z.to_nat p) with (Z.to_nat p + 0)%nat by lia. rewrite <- nth_skipn_Z, E. reflexivity. }
    cbn [seg1]. destruct (c =? 0); [reflexivity|]. rewrite IHfuel by lia. rewrite E2. reflexivity.
Qed.

Section Coll.
Variable coll : list Z -> list Z -> Z.
Hypothesis C : collation coll.

Lemma coll_refl : forall a, coll a a = 0.
Proof. intros. apply (coll_eq coll C). reflexivity. Qed.

(* the loop on suffixes *)
Lemma strcmp_loop_ok : forall fuel ls rs l r, 0 <= l <= slen ls -> 0 <= r <= slen rs -> slen ls <= maxint -> slen rs <= maxint ->
  (Z.to_nat (slen ls - l) < fuel)%nat ->
  exists c, strcmp_loop coll fuel ls rs l (slen ls - l) r (slen rs - r) = Ok c /\
  let a := skipn (Z.to_nat l) ls in let b := skipn (Z.to_nat r) rs in
  (c < 0 <-> lex (collt coll) (segs a) (segs b)) /\ (c = 0 <-> a = b) /\ (0 < c <-> lex (collt coll) (segs b) (segs a)).
Proof.
  induction fuel; intros ls rs l r Hl Hr Ml Mr F; [lia|]. cbn [strcmp_loop].
  rewrite cstr_ok by (auto; unfold slen in *; lia). cbn [bind]. rewrite cstr_ok by (auto; unfold slen in *; lia). cbn [bind].
  set (a := skipn (Z.to_nat l) ls). set (b := skipn (Z.to_nat r) rs).
  assert (LA : slen a = slen ls - l) by (apply slen_skipn; assumption). assert (LB : slen b = slen rs - r) by (apply slen_skipn; assumption).
  rewrite <- LA, <- LB.
  pose proof (split1 a) as SA. pose proof (split1 b) as SB. rewrite (segs_split a), (segs_split b).
  destruct (Z.eqb_spec (coll (seg1 a) (seg1 b)) 0) as [E|E]; cbn [negb].
  - pose proof (proj1 (coll_eq coll C _ _) E) as EQ.
    assert (NLT : forall x, ~ collt coll x x) by (intros x; unfold collt; rewrite coll_refl; lia).
    destruct (rest1 a) as [ta|]; destruct (rest1 b) as [tb|].
    + assert (LSA : slen a = slen (seg1 a) + 1 + slen ta) by (rewrite SA at 1; rewrite slen_app, slen_cons; lia).
      assert (LSB : slen b = slen (seg1 a) + 1 + slen tb) by (rewrite SB at 1; rewrite EQ, slen_app, slen_cons; lia).
      pose proof (slen_nonneg ta). pose proof (slen_nonneg tb). pose proof (slen_nonneg (seg1 a)).
      destruct (Z.eqb_spec (slen (seg1 a)) (slen b)); [lia|]. destruct (Z.eqb_spec (slen (seg1 a)) (slen a)); [lia|].
      set (len := slen (seg1 a) + 1) in *.
      assert (U1 : u64 (slen a - len) = slen ls - (l + len)) by (unfold u64; rewrite Z.mod_small; unfold_consts; lia).
      assert (U2 : u64 (slen b - len) = slen rs - (r + len)) by (unfold u64; rewrite Z.mod_small; unfold_consts; lia).
      rewrite U1, U2. destruct (IHfuel ls rs (l + len) (r + len)) as (c & EC & SC); try lia.
      exists c. split; [assumption|].
      assert (TA : skipn (Z.to_nat (l + len)) ls = ta).
      { replace (l + len) with (l + slen (seg1 a ++ [0])) by (rewrite slen_app; unfold slen; cbn; unfold len, slen; lia).
        apply (skipn_app_Z ls l (seg1 a ++ [0]) ta Hl). rewrite <- app_assoc. exact SA. }
      assert (TB : skipn (Z.to_nat (r + len)) rs = tb).
      { replace (r + len) with (r + slen (seg1 b ++ [0])) by (rewrite slen_app; unfold slen; cbn; unfold len, slen; rewrite EQ; lia).
        apply (skipn_app_Z rs r (seg1 b ++ [0]) tb Hr). rewrite <- app_assoc. exact SB. }
      rewrite TA, TB in SC. cbv zeta in SC. destruct SC as (S1 & S2 & S3). rewrite EQ.
      assert (LX : forall x u v, lex (collt coll) (x :: u) (x :: v) <-> lex (collt coll) u v).
      { intros x u v. split; [|apply lex_eq]. intros H2. inversion H2; subst; [exfalso; eapply NLT; eassumption|assumption]. }
      rewrite !LX. split; [assumption|]. split; [|assumption]. rewrite S2. rewrite SA, SB, EQ. split.
      * intros ->. reflexivity.
      * intros Q. apply app_inv_head in Q. congruence.
    + assert (LSA : slen a = slen (seg1 a) + 1 + slen ta) by (rewrite SA at 1; rewrite slen_app, slen_cons; lia).
      assert (LSB : slen b = slen (seg1 a)) by (rewrite SB at 1; rewrite EQ; reflexivity). pose proof (slen_nonneg ta).
      rewrite LSB, Z.eqb_refl. destruct (Z.eqb_spec (slen (seg1 a)) (slen a)); [lia|].
      eexists. split; [reflexivity|]. rewrite EQ. split; [|split].
      * split; [lia|]. intros Q. inversion Q; subst; [exfalso; eapply NLT; eassumption|]. inversion H1.
      * split; [lia|]. intros Q. apply (f_equal slen) in Q. lia.
      * split; [|lia]. intros _. apply lex_eq. rewrite segs_split. apply lex_nil.
    + assert (LSB : slen b = slen (seg1 a) + 1 + slen tb) by (rewrite SB at 1; rewrite EQ, slen_app, slen_cons; lia).
      assert (LSA : slen a = slen (seg1 a)) by (rewrite SA at 1; reflexivity). pose proof (slen_nonneg tb).
      destruct (Z.eqb_spec (slen (seg1 a)) (slen b)); [lia|]. destruct (Z.eqb_spec (slen (seg1 a)) (slen a)); [|lia].
      eexists. split; [reflexivity|]. rewrite EQ. split; [|split].
      * split; [|lia]. intros _. apply lex_eq. rewrite segs_split. apply lex_nil.
      * split; [lia|]. intros Q. apply (f_equal slen) in Q. lia.
      * split; [lia|]. intros Q. inversion Q; subst; [exfalso; eapply NLT; eassumption|]. inversion H1.
    + assert (LSA : slen a = slen (seg1 a)) by (rewrite SA at 1; reflexivity).
      assert (LSB : slen b = slen (seg1 a)) by (rewrite SB at 1; rewrite EQ; reflexivity).
      rewrite LSB, LSA, !Z.eqb_refl. eexists. split; [reflexivity|]. rewrite EQ.
      assert (NL : ~ lex (collt coll) [seg1 b] [seg1 b]).
      { intros Q. inversion Q; subst; [eapply NLT; eassumption|]. inversion H0. }
      split; [|split].
      * split; [lia|]. intros Q. exfalso. apply NL. assumption.
      * split; [|reflexivity]. intros _. congruence.
      * split; [lia|]. intros Q. exfalso. apply NL. assumption.
  - assert (NE : seg1 a <> seg1 b) by (intros Q; apply E, (coll_eq coll C), Q).
    exists (coll (seg1 a) (seg1 b)). split; [reflexivity|].
    assert (HX : forall x y u v, x <> y -> (lex (collt coll) (x :: u) (y :: v) <-> collt coll x y)).
    { intros x y u v N. split; [intros Q; inversion Q; subst; [assumption|congruence]|apply lex_lt]. }
    rewrite !HX by congruence. unfold collt. split; [tauto|]. split.
    + split; [intros; lia|]. intros Q. exfalso. apply NE. rewrite Q. reflexivity.
    + symmetry. apply (coll_anti coll C).
Qed.

Theorem strcmp_spec : forall s t, slen s <= maxint -> slen t <= maxint ->
  exists c, l_strcmp coll s t = Ok c /\
  (c < 0 <-> lex (collt coll) (segs s) (segs t)) /\ (c = 0 <-> s = t) /\ (0 < c <-> lex (collt coll) (segs t) (segs s)).
Proof.
  intros s t Ms Mt. pose proof (slen_nonneg s). pose proof (slen_nonneg t).
  destruct (strcmp_loop_ok (S (length s)) s t 0 0) as (c & E & S); try lia; [unfold slen; lia|].
  rewrite !Z.sub_0_r in E. exists c. split; assumption.
Qed.

Lemma lex_trans : forall a b c, lex (collt coll) a b -> lex (collt coll) b c -> lex (collt coll) a c.
Proof.
  intros a b c H. revert c. induction H as [y b|x y a b L|x a b H IH]; intros c K.
  - inversion K; subst; constructor.
  - inversion K; subst; [|apply lex_lt; assumption]. apply lex_lt. unfold collt in *. eapply (coll_trans coll C); eassumption.
  - inversion K; subst; [apply lex_lt; assumption|]. apply lex_eq. apply IH. assumption.
Qed.

Theorem str_order : forall s t u, slen s <= maxint -> slen t <= maxint -> slen u <= maxint ->
  exists st ts le tu su, str_lt coll s t = Ok st /\ str_lt coll t s = Ok ts /\ str_le coll s t = Ok le /\ str_lt coll t u = Ok tu /\ str_lt coll s u = Ok su /\
  (* irreflexive and total: exactly one of s < t, s = t, t < s *)
  (st = true /\ ts = false /\ s <> t \/ st = false /\ ts = false /\ s = t \/ st = false /\ ts = true /\ s <> t) /\
  (le = true <-> st = true \/ s = t) /\
  (st = true -> tu = true -> su = true).
Proof.
  intros s t u Ms Mt Mu.
  destruct (strcmp_spec s t Ms Mt) as (c1 & E1 & A1 & B1 & D1). destruct (strcmp_spec t s Mt Ms) as (c2 & E2 & A2 & B2 & D2).
  destruct (strcmp_spec t u Mt Mu) as (c3 & E3 & A3 & B3 & D3). destruct (strcmp_spec s u Ms Mu) as (c4 & E4 & A4 & B4 & D4).
  unfold str_lt, str_le. rewrite E1, E2, E3, E4. cbn [bind].
  exists (c1 <? 0), (c2 <? 0), (c1 <=? 0), (c3 <? 0), (c4 <? 0). do 5 (split; [reflexivity|]).
  split; [|split].
  - destruct (Z.ltb_spec c1 0); destruct (Z.ltb_spec c2 0).
    + exfalso. rewrite <- D1 in A2. lia.
    + left. split; [reflexivity|]. split; [reflexivity|]. intros Q. apply B1 in Q. lia.
    + right. right. split; [reflexivity|]. split; [reflexivity|]. intros Q. symmetry in Q. apply B2 in Q. lia.
    + right. left. split; [reflexivity|]. split; [reflexivity|]. apply B1. rewrite <- A2 in D1. lia.
  - rewrite Z.leb_le, Z.ltb_lt, <- B1. lia.
  - rewrite !Z.ltb_lt. rewrite A1, A3, A4. apply lex_trans.
Qed.
End Coll.

(* ---- the C locale ---- *)
Lemma strcmp_collation : collation strcmp.
Proof.
  split.
  - induction a as [|x a IH]; destruct b as [|y b]; cbn [strcmp]; split; intros H; try reflexivity; try discriminate.
    + destruct (Z.ltb_spec x y); [discriminate|]. destruct (Z.ltb_spec y x); [discriminate|]. apply IH in H. f_equal; [lia|assumption].
    + injection H as -> ->. rewrite Z.ltb_irrefl. apply IH. reflexivity.
  - induction a as [|x a IH]; destruct b as [|y b]; cbn [strcmp]; try lia.
    destruct (Z.ltb_spec x y); destruct (Z.ltb_spec y x); try lia. apply IH.
  - induction a as [|x a IH]; intros b c; destruct b as [|y b]; destruct c as [|z c]; cbn [strcmp]; try lia.
    destruct (Z.ltb_spec x y); destruct (Z.ltb_spec y z); destruct (Z.ltb_spec x z); destruct (Z.ltb_spec y x); destruct (Z.ltb_spec z y); destruct (Z.ltb_spec z x); try lia.
    apply IH.
Qed.

Lemma strcmp_lex : forall a b, strcmp a b < 0 <-> lex Z.lt a b.
Proof.
  induction a as [|x a IH]; destruct b as [|y b]; cbn [strcmp].
  - split; [lia|intros H; inversion H].
  - split; [intros; constructor|lia].
  - split; [lia|intros H; inversion H].
  - destruct (Z.ltb_spec x y).
    + split; [intros; apply lex_lt; assumption|lia].
    + destruct (Z.ltb_spec y x).
      * split; [lia|]. intros Q. inversion Q; subst; lia.
      * assert (x = y) by lia. subst. rewrite IH. split; [apply lex_eq|]. intros Q. inversion Q; subst; [lia|assumption].
Qed.

Lemma segs_bytes : forall s t, wf_str s -> wf_str t -> (lex (collt strcmp) (segs s) (segs t) <-> lex Z.lt s t).
Proof.
  induction s as [|c s IH]; destruct t as [|d t]; intros Ws Wt; cbn [segs].
  - split; intros H; [|inversion H]. inversion H; subst; [unfold collt in *; cbn in *; lia|inversion H1].
  - split; [intros; constructor|]. intros _. destruct (d =? 0).
    + apply lex_eq. rewrite segs_split. constructor.
    + rewrite segs_split. apply lex_lt. unfold collt. cbn. lia.
  - split; [|intros H; inversion H]. intros H. exfalso. destruct (c =? 0).
    + inversion H; subst; [unfold collt in *; cbn in *; lia|]. inversion H1.
    + rewrite segs_split in H. inversion H; subst; unfold collt in *; cbn in *; lia.
  - inversion Ws; subst. inversion Wt; subst. unfold is_byte in *. specialize (IH t H2 H4).
    destruct (Z.eqb_spec c 0) as [->|Nc]; destruct (Z.eqb_spec d 0) as [->|Nd].
    + split; intros H; inversion H; subst; try lia.
      * unfold collt in *; cbn in *; lia.
      * apply lex_eq, IH. assumption.
      * apply lex_eq, IH. assumption.
    + split; [intros _; apply lex_lt; lia|]. intros _. rewrite (segs_split t). apply lex_lt. unfold collt. cbn. lia.
    + split; intros H; exfalso.
      * rewrite (segs_split s) in H. inversion H; subst; unfold collt in *; cbn in *; lia.
      * inversion H; subst; lia.
    + rewrite (segs_split s), (segs_split t) in *.
      destruct (Z.lt_trichotomy c d) as [L|[->|L]].
      * split; intros _; apply lex_lt; [assumption|]. unfold collt. cbn [strcmp]. destruct (Z.ltb_spec c d); lia.
      * split; intros H.
        -- apply lex_eq, IH. inversion H; subst.
           ++ apply lex_lt. unfold collt in *. cbn [strcmp] in *. rewrite Z.ltb_irrefl in *. assumption.
           ++ apply lex_eq. assumption.
        -- assert (H6 : lex Z.lt s t) by (inversion H; subst; [lia|assumption]). apply IH in H6. inversion H6; subst.
           ++ apply lex_lt. unfold collt in *. cbn [strcmp]. rewrite Z.ltb_irrefl. assumption.
           ++ apply lex_eq. assumption.
      * split; intros H; exfalso.
        -- inversion H; subst; [|lia]. unfold collt in *. cbn [strcmp] in *. destruct (Z.ltb_spec c d); [lia|]. destruct (Z.ltb_spec d c); lia.
        -- inversion H; subst; lia.
Qed.

Theorem c_locale : forall s t, wf_str s -> wf_str t -> slen s <= maxint -> slen t <= maxint ->
  exists b, str_lt strcmp s t = Ok b /\ (b = true <-> lex Z.lt s t).
Proof.
  intros s t Ws Wt Ms Mt. destruct (strcmp_spec strcmp strcmp_collation s t Ms Mt) as (c & E & A & _).
  unfold str_lt. rewrite E. cbn [bind]. eexists. split; [reflexivity|]. rewrite Z.ltb_lt, A. apply segs_bytes; assumption.
Qed.

(* a collation with an ignorable character (here the byte 1): equal but of different length *)
Definition ignoring (a b : list Z) : Z :=
  strcmp (filter (fun c => negb (c =? 1)) a) (filter (fun c => negb (c =? 1)) b).
Theorem collation_needed :
  (forall a b, ignoring a b < 0 <-> 0 < ignoring b a) /\
  (forall a b c, ignoring a b < 0 -> ignoring b c < 0 -> ignoring a c < 0) /\
  str_lt ignoring [97; 1] [97] = Ok true /\ str_lt ignoring [97] [97; 1] = Ok true /\
  l_strcmp ignoring [97; 1; 0; 98] [97] = UB.
Proof.
  split; [intros; apply (coll_anti strcmp strcmp_collation)|]. split; [intros a b c; apply (coll_trans strcmp strcmp_collation)|].
  repeat split; vm_compute; reflexivity.
Qed.
