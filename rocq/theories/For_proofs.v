Require Import ZArith QArith List Bool Lia.
From Coq Require Import Floats.SpecFloat.
From Verif Require Import Base Base_facts Float_model Float_spec Float_facts Float_proofs For_model For_spec.
Import ListNotations.
Open Scope Z_scope.

(* the integer limit stands for the given one *)
Definition repr (lim : num) (step l : Z) : Prop :=
  forall x, is_s64 x -> (within lim step x <-> (if 0 <? step then x <=? l else l <=? x) = true).

Lemma within_int : forall l step x, within (NInt l) step x <-> (if 0 <? step then x <=? l else l <=? x) = true.
Proof.
  intros. unfold within. destruct (0 <? step).
  - rewrite (both_eq ele (NInt x) (NInt l) _ _ eq_refl eq_refl), ele_fin, inject_le, Z.leb_le. tauto.
  - rewrite (both_eq ele (NInt l) (NInt x) _ _ eq_refl eq_refl), ele_fin, inject_le, Z.leb_le. tauto.
Qed.

Lemma gt0_float : forall f, valid f -> flt_lt fzero f = true <-> exists x, fval f = Some x /\ elt (Fin 0) x.
Proof.
  intros f V. rewrite (lt_ok fzero f eq_refl V). cbn [fval fzero]. split.
  - intros (x & y & X & Y & L). injection X as <-. exists y. auto.
  - intros (x & X & L). exists (Fin 0), x. auto.
Qed.

(* what forlimit computes: a limit with the same meaning, or "do not run" *)
Lemma forlimit_ok : forall lim step, wfnum lim -> step <> 0 -> (step < 0 -> not_nan lim) ->
  exists l stop, forlimit lim step = Ok (l, stop) /\ is_s64 l /\
  (stop = false -> repr lim step l) /\
  (stop = true -> (forall x, is_s64 x -> ~ within lim step x) /\ (0 < step -> l = minint) /\ (step < 0 -> l = maxint)).
Proof.
  intros lim step W S0 NN. destruct lim as [i|f]; cbn [forlimit].
  - exists i, false. split; [reflexivity|]. split; [exact W|]. split; [|discriminate]. intros _ x _. apply within_int.
  - cbn [wfnum] in W. destruct (flttointeger_ok f (if step <? 0 then F2Iceil else F2Ifloor) W) as (o & E & SO). rewrite E. cbn [bind].
    destruct o as [p|].
    + exists p, false. split; [reflexivity|]. destruct (proj1 (SO p) eq_refl) as [F S]. split; [assumption|]. split; [|discriminate].
      intros _ x Sx. unfold within. destruct (Z.ltb_spec 0 step) as [P|P]; destruct (Z.ltb_spec step 0) as [Q|Q]; try lia; cbn [fzval] in F.
      * destruct F as (q & EQ & F1 & F2). rewrite (both_eq ele (NInt x) (NFlt f) _ _ eq_refl EQ), ele_fin, Z.leb_le.
        symmetry. apply (floor_lt f p q x); [exists q; auto|assumption].
      * destruct F as (q & EQ & F1 & F2). rewrite (both_eq ele (NFlt f) (NInt x) _ _ EQ eq_refl), ele_fin, Z.leb_le.
        symmetry. apply (ceil_lt f p q x); [exists q; auto|assumption].
    + assert (NS : forall z, fzval f (if step <? 0 then F2Iceil else F2Ifloor) z -> ~ is_s64 z)
        by (intros z A B; assert (@None Z = Some z) by (apply SO; auto); discriminate).
      assert (FIN : forall q, fval f = Some (Fin q) -> (forall x, is_s64 x -> (inject_Z x < q)%Q) /\ (0 < q)%Q \/ (forall x, is_s64 x -> (q < inject_Z x)%Q) /\ (q < 0)%Q).
      { intros q EQ. destruct (floor_ceil_exist f q W EQ) as [[zf (q1 & E1 & F1 & F2)] [zc (q2 & E2 & C1 & C2)]].
        rewrite EQ in E1, E2. injection E1 as <-. injection E2 as <-. assert (ZZ : zf <= zc) by (apply (proj1 (inject_le _ _)); eapply Qle_trans; eassumption).
        assert (ZZ2 : zc - 1 < zf + 1) by (apply (proj1 (inject_lt _ _)); eapply Qlt_trans; eassumption).
        assert (CASE : maxint < zf \/ zc < minint).
        { destruct (floor_fin f q W EQ) as (y & _ & _ & L & U & SM). assert (y = zf) by (eapply floor_u; eassumption). subst y.
          assert (K : (~ is_s64 zf) \/ (~ is_s64 zc)).
          { destruct (step <? 0); [right|left]; apply NS; cbn [fzval]; exists q; auto. }
          destruct SM as [SM|SM].
          - assert (zc = zf) by (rewrite SM in C1; apply (proj1 (inject_lt _ _)) in C1; lia). unfold is_s64 in K. lia.
          - exfalso. unfold is_s64 in K. unfold_consts. lia. }
        destruct CASE as [C|C]; [left|right]; split.
        - intros x Sx. eapply Qlt_le_trans; [|exact F1]. apply (proj2 (inject_lt _ _)). unfold is_s64 in Sx. lia.
        - eapply Qlt_le_trans; [|exact F1]. change 0%Q with (inject_Z 0). apply (proj2 (inject_lt _ _)). unfold_consts. lia.
        - intros x Sx. eapply Qle_lt_trans; [exact C2|]. apply (proj2 (inject_lt _ _)). unfold is_s64 in Sx. lia.
        - eapply Qle_lt_trans; [exact C2|]. change 0%Q with (inject_Z 0). apply (proj2 (inject_lt _ _)). unfold_consts. lia. }
      pose proof (gt0_float f W) as GT. destruct (flt_lt fzero f).
      * destruct (proj1 GT eq_refl) as (v & EV & LV). exists maxint, (step <? 0). split; [reflexivity|]. split; [unfold is_s64; unfold_consts; lia|].
        assert (ABOVE : forall x, is_s64 x -> elt (Fin (inject_Z x)) v).
        { intros x Sx. destruct v as [|q|]; cbn [elt] in *; try contradiction; try exact I.
          destruct (FIN q EV) as [[A B]|[A B]]; [apply A; assumption|]. exfalso. exact (Qlt_irrefl 0 (Qlt_trans _ _ _ LV B)). }
        split.
        -- intros H x Sx. apply Z.ltb_ge in H. unfold within. destruct (Z.ltb_spec 0 step); [|lia].
           rewrite (both_eq ele (NInt x) (NFlt f) _ _ eq_refl EV), Z.leb_le. split; [intros _; unfold is_s64 in Sx; lia|]. intros _. left. apply ABOVE. assumption.
        -- intros H. apply Z.ltb_lt in H. split; [|split; [lia|reflexivity]]. intros x Sx. unfold within. destruct (Z.ltb_spec 0 step); [lia|].
           rewrite (both_eq ele (NFlt f) (NInt x) _ _ EV eq_refl). intros [L|L]; [exact (elt_irr _ (elt_trans _ _ _ L (ABOVE x Sx)))|].
           exact (elt_irr _ (elt_eeq _ _ _ (ABOVE x Sx) L)).
      * exists minint, (0 <=? step). split; [reflexivity|]. split; [unfold is_s64; unfold_consts; lia|].
        assert (BELOW : forall v, fval f = Some v -> forall x, is_s64 x -> elt v (Fin (inject_Z x))).
        { intros v EV x Sx. destruct v as [|q|]; cbn [elt]; try exact I.
          - destruct (FIN q EV) as [[A B]|[A B]]; [|apply A; assumption]. exfalso. assert (false = true); [|discriminate].
            apply GT. exists (Fin q). auto.
          - assert (false = true); [|discriminate]. apply GT. exists PlusInf. split; [assumption|exact I]. }
        split.
        -- intros H x Sx. apply Z.leb_gt in H. unfold within. destruct (Z.ltb_spec 0 step); [lia|].
           destruct (not_nan_val (NFlt f) (NN H)) as (v & EV). rewrite (both_eq ele (NFlt f) (NInt x) _ _ EV eq_refl), Z.leb_le.
           split; [intros _; unfold is_s64 in Sx; lia|]. intros _. left. apply BELOW; assumption.
        -- intros H. apply Z.leb_le in H. split; [|split; [reflexivity|lia]]. intros x Sx. unfold within. destruct (Z.ltb_spec 0 step); [|lia].
           intros (a & v & A & EV & R). cbn [nval] in *. injection A as <-. pose proof (BELOW v EV x Sx) as B.
           destruct R as [L|L]; [exact (elt_irr _ (elt_trans _ _ _ L B))|]. exact (elt_irr _ (eeq_elt _ _ _ L B)).
Qed.

Lemma s64_add : forall a b, is_s64 (a + b) -> s64 (u64 a + u64 b) = a + b.
Proof.
  intros a b H. destruct (u64_eqm a) as [k1 E1]. destruct (u64_eqm b) as [k2 E2]. rewrite E1, E2.
  rewrite (s64_cong _ (a + b) (k1 + k2)) by lia. apply s64_id. exact H.
Qed.
Lemma prep_back : forall a b, s64 (u64 (s64 (u64 a - u64 b)) + u64 b) = s64 a.
Proof.
  intros a b. destruct (u64_eqm a) as [k1 E1]. destruct (u64_eqm b) as [k2 E2]. destruct (s64_eqm (u64 a - u64 b)) as [k3 E3].
  destruct (u64_eqm (s64 (u64 a - u64 b))) as [k4 E4]. rewrite E4, E3, E1, E2. apply (s64_cong _ a (k1 + k3 + k4)). lia.
Qed.

(* one iteration of the generic loop *)
Lemma generic_next : forall idx x limit step, s64 (u64 idx + u64 step) = x ->
  forloop Generic idx limit step = Ok (if (if 0 <? step then x <=? limit else limit <=? x) then Some x else None).
Proof. intros. unfold forloop. rewrite H. destruct (if 0 <? step then x <=? limit else limit <=? x); reflexivity. Qed.

Lemma between_s64 : forall a s n k, is_s64 a -> is_s64 (a + n * s) -> 0 <= k <= n -> is_s64 (a + k * s).
Proof.
  unfold is_s64. intros a s n k A B C. destruct (Z.le_gt_cases 0 s).
  - assert (0 <= k * s <= n * s) by nia. lia.
  - assert (n * s <= k * s <= 0) by nia. lia.
Qed.

(* n further values from x on *)
Lemma visits_generic : forall n x idx lim limit step fuel, is_s64 x -> is_s64 (x + Z.of_nat n * step) -> repr lim step limit ->
  s64 (u64 idx + u64 step) = x -> (n < fuel)%nat -> trip x lim step n ->
  visits fuel Generic idx limit step = Ok (progression x step n).
Proof.
  induction n; intros x idx lim limit step fuel Sx Sn R E F [T1 T2]; (destruct fuel as [|fuel]; [lia|]); cbn [visits progression].
  - rewrite (generic_next idx x limit step E). replace (x + Z.of_nat 0 * step) with x in T2 by lia. rewrite (R x Sx) in T2.
    destruct (if 0 <? step then x <=? limit else limit <=? x); [congruence|]. reflexivity.
  - rewrite (generic_next idx x limit step E). pose proof (T1 0 ltac:(lia)) as W. replace (x + 0 * step) with x in W by lia.
    rewrite (R x Sx) in W. rewrite W. cbn [bind].
    assert (S1 : is_s64 (x + step)).
    { replace (x + step) with (x + 1 * step) by lia. apply (between_s64 x step (Z.of_nat (S n))); auto. lia. }
    rewrite (IHn (x + step) x lim limit step fuel); auto; try lia.
    + replace (x + step + Z.of_nat n * step) with (x + Z.of_nat (S n) * step) by lia. assumption.
    + apply s64_add. assumption.
    + split.
      * intros k K. replace (x + step + k * step) with (x + (k + 1) * step) by lia. apply T1. lia.
      * replace (x + step + Z.of_nat n * step) with (x + Z.of_nat (S n) * step) by lia. assumption.
Qed.

Theorem for_generic : forall init lim step n fuel, is_s64 init -> wfnum lim -> is_s64 step -> step <> 0 ->
  (step < 0 -> not_nan lim) ->
  trip init lim step n -> is_s64 (init + Z.of_nat n * step) -> (n < fuel)%nat ->
  run_for fuel Generic init lim step = Ok (progression init step n).
Proof.
  intros init lim step n fuel Si Wl Ss S0 NN T Sn F. unfold run_for, forprep.
  destruct (forlimit_ok lim step Wl S0 NN) as (l & stop & E & Sl & R & Stop). rewrite E. cbn [bind]. destruct stop.
  - destruct (Stop eq_refl) as (NO & LP & LN). assert (n = 0%nat).
    { destruct n; [reflexivity|]. exfalso. destruct T as [T1 _]. apply (NO init Si). specialize (T1 0 ltac:(lia)). replace (init + 0 * step) with init in T1 by lia. assumption. }
    subst n. destruct fuel; [lia|]. cbn [visits progression].
    rewrite (generic_next _ 0 l step) by (rewrite prep_back; reflexivity).
    destruct (Z.ltb_spec 0 step).
    + rewrite (LP H). reflexivity.
    + rewrite (LN ltac:(lia)). reflexivity.
  - apply (visits_generic n init _ lim); auto. rewrite prep_back. apply s64_id. assumption.
Qed.

(* the specialised loops do the same as the generic one *)
Lemma visits_special : forall v n x idx limit step fuel, (v = IP /\ 0 < step \/ v = I1 /\ step = 1) ->
  is_s64 x -> is_s64 (x + Z.of_nat n * step) ->
  idx + step = x -> (n < fuel)%nat -> trip x (NInt limit) step n ->
  visits fuel v idx limit step = Ok (progression x step n).
Proof.
  intros v. induction n; intros x idx limit step fuel V Sx Sn E F [T1 T2]; (destruct fuel as [|fuel]; [lia|]); cbn [visits progression].
  - assert (FL : forloop v idx limit step = Ok (if x <=? limit then Some x else None)).
    { destruct V as [[-> P]|[-> ->]]; cbn [forloop]; rewrite E, c_signed_ok by assumption; cbn [bind]; destruct (x <=? limit); reflexivity. }
    rewrite FL. replace (x + Z.of_nat 0 * step) with x in T2 by lia. rewrite within_int in T2.
    replace (0 <? step) with true in T2 by (symmetry; apply Z.ltb_lt; lia). destruct (x <=? limit); [congruence|reflexivity].
  - assert (FL : forloop v idx limit step = Ok (if x <=? limit then Some x else None)).
    { destruct V as [[-> P]|[-> ->]]; cbn [forloop]; rewrite E, c_signed_ok by assumption; cbn [bind]; destruct (x <=? limit); reflexivity. }
    rewrite FL. pose proof (T1 0 ltac:(lia)) as W. replace (x + 0 * step) with x in W by lia. rewrite within_int in W.
    replace (0 <? step) with true in W by (symmetry; apply Z.ltb_lt; lia). rewrite W. cbn [bind].
    assert (S1 : is_s64 (x + step)).
    { replace (x + step) with (x + 1 * step) by lia. apply (between_s64 x step (Z.of_nat (S n))); auto. lia. }
    rewrite (IHn (x + step) x limit step fuel); auto; try lia.
    + replace (x + step + Z.of_nat n * step) with (x + Z.of_nat (S n) * step) by lia. assumption.
    + split.
      * intros k K. replace (x + step + k * step) with (x + (k + 1) * step) by lia. apply T1. lia.
      * replace (x + step + Z.of_nat n * step) with (x + Z.of_nat (S n) * step) by lia. assumption.
Qed.

Theorem for_special : forall v init limit step n fuel, (v = IP /\ 0 < step \/ v = I1 /\ step = 1) ->
  is_s64 init -> is_s64 (init - step) ->
  trip init (NInt limit) step n -> is_s64 (init + Z.of_nat n * step) -> (n < fuel)%nat ->
  run_for fuel v init (NInt limit) step = Ok (progression init step n).
Proof.
  intros v init limit step n fuel V Si Sb T Sn F. unfold run_for.
  assert (P : forprep v init (NInt limit) step = Ok (init - step, limit)).
  { destruct V as [[-> P]|[-> ->]]; cbn [forprep]; rewrite c_signed_ok by assumption; reflexivity. }
  rewrite P. cbn [bind]. apply visits_special; auto. lia.
Qed.

(* the number of trips exists and is unique, so the theorems above describe every loop that can
   finish without leaving the 64-bit range *)
Lemma within_dec : forall lim s x, wfnum lim -> is_s64 x -> within lim s x \/ ~ within lim s x.
Proof.
  intros lim s x W S. unfold within. destruct (0 <? s).
  - destruct (LEnum_ok (NInt x) lim S W) as ([] & _ & R); [left; apply R; reflexivity|right; intros H; apply R in H; discriminate].
  - destruct (LEnum_ok lim (NInt x) W S) as ([] & _ & R); [left; apply R; reflexivity|right; intros H; apply R in H; discriminate].
Qed.
Theorem trip_unique : forall a lim s n m, trip a lim s n -> trip a lim s m -> n = m.
Proof.
  intros a lim s n m [T1 T2] [U1 U2]. destruct (Nat.lt_trichotomy n m) as [H|[H|H]]; [|assumption|].
  - exfalso. apply T2, U1. lia.
  - exfalso. apply U2, T1. lia.
Qed.
(* with an integer limit: the usual formula *)
Theorem trip_count : forall a b s, 0 < s -> trip a (NInt b) s (Z.to_nat ((b - a) / s + 1)) .
Proof.
  intros a b s Hs. pose proof (Z.div_mod (b - a) s ltac:(lia)) as D. pose proof (Z.mod_pos_bound (b - a) s Hs) as M.
  split.
  - intros k K. rewrite within_int. destruct (Z.ltb_spec 0 s); [|lia]. apply Z.leb_le. nia.
  - rewrite within_int. destruct (Z.ltb_spec 0 s); [|lia]. intros H2. apply Z.leb_le in H2.
    destruct (Z.le_gt_cases 0 ((b - a) / s + 1)) as [P|P].
    + rewrite Z2Nat.id in H2 by assumption. nia.
    + replace (Z.of_nat (Z.to_nat ((b - a) / s + 1))) with 0 in H2 by lia. nia.
Qed.

(* ---- what is not true ---- *)
(* 1. the generic loop never ends when the limit is the largest integer *)
Theorem generic_endless : forall fuel, run_for fuel Generic maxint (NInt maxint) 1 = OutOfFuel.
Proof.
  intros fuel. unfold run_for. cbn [forprep forlimit bind].
  assert (H : forall f idx, visits f Generic idx maxint 1 = OutOfFuel).
  { induction f; intros idx; [reflexivity|]. cbn [visits].
    rewrite (generic_next idx _ maxint 1 eq_refl). pose proof (s64_range (u64 idx + u64 1)) as R.
    change (0 <? 1) with true. cbv iota. replace (s64 (u64 idx + u64 1) <=? maxint) with true.
    - cbn [bind]. rewrite IHf. reflexivity.
    - symmetry. apply Z.leb_le. unfold is_s64 in R. lia. }
  apply H.
Qed.
Theorem loop_end_refuted :
  trip maxint (NInt maxint) 1 1 /\ (forall fuel, run_for fuel Generic maxint (NInt maxint) 1 = OutOfFuel) /\
  run_for 10 I1 maxint (NInt maxint) 1 = UB /\ run_for 10 I1 minint (NInt 0) 1 = UB.
Proof.
  split; [|split; [exact generic_endless|split; vm_compute; reflexivity]].
  exact (trip_count maxint maxint 1 eq_refl).
Qed.
(* 2. a NaN limit stops a loop with a positive step but not one with a negative step *)
Theorem nan_limit_refuted : trip 3 (NFlt S754_nan) (-1) 0 /\
  exists r, visits 3 Generic (s64 (u64 3 - u64 (-1))) minint (-1) = OutOfFuel /\
  forprep Generic 3 (NFlt S754_nan) (-1) = Ok (s64 (u64 3 - u64 (-1)), minint) /\
  forloop Generic (s64 (u64 3 - u64 (-1))) minint (-1) = Ok (Some r) /\ r = 3.
Proof.
  split.
  - split; [intros k K; lia|]. unfold within. cbn [Z.ltb Z.compare]. intros (x & y & X & _). discriminate.
  - eexists. repeat split; vm_compute; reflexivity.
Qed.
(* 3. a constant step is truncated to an int when the variant is chosen: 2^32+1 counts as 1 *)
Definition lit (z : Z) : expinfo := mkExp true (Some z) false.
Theorem const_step_refuted :
  fornum_variant (lit 1) (lit 10000000000) (lit 4294967297) = I1 /\
  fornum_variant (lit 1) (lit 3) (lit 4294967297) = I1 /\
  trip 1 (NInt 3) 4294967297 1 /\ run_for 9 I1 1 (NInt 3) 4294967297 = Ok [1; 2; 3] /\
  fornum_variant (lit 1) (lit 3) (lit 2147483648) = Generic.
Proof.
  split; [reflexivity|]. split; [reflexivity|]. split; [|split; vm_compute; reflexivity].
  exact (trip_count 1 3 4294967297 eq_refl).
Qed.
(* 4. an expression starting with # must be integral: for i = 1, #t / 2 raises an error when #t is odd *)
Definition three_halves : flt := S754_finite false 6755399441055744 (-52).
Theorem hash_limit_refuted :
  valid three_halves /\ trip 1 (NFlt three_halves) 1 1 /\
  exp1_value (mkExp false None true) (NFlt three_halves) = Err EType /\
  run_for 3 Generic 1 (NFlt three_halves) 1 = Ok [1].
Proof.
  split; [reflexivity|]. split.
  - assert (V : fval three_halves = Some (Fin (6755399441055744 # 4503599627370496))) by reflexivity.
    split.
    + intros k K. assert (k = 0) by lia. subst. unfold within. cbn [Z.ltb Z.compare]. rewrite (both_eq ele (NInt _) (NFlt three_halves) _ _ eq_refl V), ele_fin. cbn. discriminate.
    + unfold within. cbn [Z.ltb Z.compare]. rewrite (both_eq ele (NInt _) (NFlt three_halves) _ _ eq_refl V), ele_fin. cbn. intros H. apply H. reflexivity.
  - split; vm_compute; reflexivity.
Qed.

(* the variant is chosen soundly for every literal step which fits an int *)
Theorem variant_sound : forall i l s step, literal s = Some step -> -two31 <= step < two31 ->
  match fornum_variant i l s with IP => 0 < step | I1 => step = 1 | Generic => True end.
Proof.
  intros i l s step L R. unfold fornum_variant, int_value, is_constant. rewrite L.
  rewrite s32_id by (unfold two31 in *; lia).
  destruct (exp1_int i && exp1_int l && exp1_int s && true); [|exact I].
  destruct (Z.ltb_spec 1 step); [lia|]. destruct (Z.eqb_spec step 1); [assumption|exact I].
Qed.
