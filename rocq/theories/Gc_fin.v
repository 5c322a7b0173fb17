(** The atomic phase as a whole: afterwards the marked objects are closed under
    references and contain every root. *)
From Coq Require Import ZArith List Bool Arith Lia Permutation.
From Verif Require Import Base Gc_model Gc_spec Gc_facts Gc_tri Gc_trav Gc_prop Gc_atomic.
Import ListNotations.
Local Open Scope nat_scope.

(** The object contents only shrink; nothing is freed. *)
Record shr0 (st st' : gst) : Prop := {
  s0_none : forall o, heap st o = None -> heap st' o = None;
  s0_some : forall o a, heap st o = Some a -> exists b, heap st' o = Some b /\ osub a b;
  s0_uv : forall u, usub (uvs st u) (uvs st' u);
  s0_fld : nextid st' = nextid st /\ nextuv st' = nextuv st /\ cw st' = cw st /\
    allgc st' = allgc st /\ fixedgc st' = fixedgc st /\
    mainth st' = mainth st /\ curth st' = curth st /\ registry st' = registry st /\ mts st' = mts st /\
    memerr st' = memerr st
}.

Lemma shr0_shr : forall st st', shr st st' -> shr0 st st'.
Proof.
  intros st st' [A B C D]. constructor; auto. tauto.
Qed.
Lemma shr0_trans : forall a b c, shr0 a b -> shr0 b c -> shr0 a c.
Proof.
  intros a b c [A1 B1 C1 D1] [A2 B2 C2 D2]. constructor.
  - intros o E. apply A2, A1, E.
  - intros o x E. destruct (B1 o x E) as [y [Ey Sy]]. destruct (B2 o y Ey) as [z [Ez Sz]]. exists z. split; [exact Ez | apply (osub_trans _ _ _ Sy Sz)].
  - intros u. apply (usub_trans _ _ _ (C1 u) (C2 u)).
  - decompose [and] D1; decompose [and] D2. repeat split; congruence.
Qed.

Lemma shr0_same : forall st st', heap st' = heap st -> uvs st' = uvs st ->
  nextid st' = nextid st /\ nextuv st' = nextuv st /\ cw st' = cw st /\
    allgc st' = allgc st /\ fixedgc st' = fixedgc st /\
    mainth st' = mainth st /\ curth st' = curth st /\ registry st' = registry st /\ mts st' = mts st /\
    memerr st' = memerr st -> shr0 st st'.
Proof.
  intros st st' H U F. constructor; rewrite ?H, ?U; auto.
  - intros o a E. exists a. split; [exact E | apply osub_refl].
  - intros u. apply usub_refl.
Qed.

Lemma shr0_kind : forall st st' o, shr0 st st' -> kind_of st' o = kind_of st o.
Proof.
  intros st st' o S. unfold kind_of. destruct (heap st o) as [a|] eqn:E.
  - destruct (s0_some _ _ S o a E) as [b [Eb Sb]]. rewrite Eb, (os_kind _ _ Sb). reflexivity.
  - rewrite (s0_none _ _ S o E). reflexivity.
Qed.
Lemma shr0_inv : forall st st' o b, shr0 st st' -> heap st' o = Some b -> exists a, heap st o = Some a /\ osub a b.
Proof.
  intros st st' o b S H. destruct (heap st o) as [a|] eqn:E.
  - destruct (s0_some _ _ S o a E) as [b' [Eb Sb]]. exists a. split; [reflexivity|]. congruence.
  - rewrite (s0_none _ _ S o E) in H. discriminate.
Qed.
Lemma shr0_nw : forall st st' o, shr0 st st' -> iswhite st o = false -> iswhite st' o = false.
Proof.
  intros st st' o S H. unfold iswhite in *. destruct (heap st' o) as [b|] eqn:E; [|reflexivity].
  destruct (shr0_inv _ _ _ _ S E) as [a [Ea Sa]]. rewrite Ea in H. destruct (is_whitec (o_col b)) eqn:W; [|reflexivity].
  rewrite (os_col _ _ Sa W) in W. congruence.
Qed.

(** [same st st']: nothing that the collection invariant reads differs. *)
Lemma CI_same : forall m E ex st st', CI m E ex st -> heap st' = heap st -> uvs st' = uvs st -> nextid st' = nextid st ->
  fixedgc st' = fixedgc st -> gray st' = gray st -> grayagain st' = grayagain st -> weak st' = weak st -> allweak st' = allweak st ->
  ephemeron st' = ephemeron st -> twups st' = twups st -> CI m E ex st'.
Proof.
  intros m E ex st st' [T C W G] H1 H2 H3 H4 H5 H6 H7 H8 H9 H10.
  destruct st, st'. cbn in *. subst.
  constructor.
  - destruct T as [T1 T2 T3]. constructor; assumption.
  - exact C.
  - exact W.
  - destruct G as [N Col Tab]. constructor; assumption.
Qed.

(** ** Start of the atomic phase *)

Lemma CI_start : forall st, CI MA [] None st -> CI MB (grayagain st) None (set_gcs (set_grayagain st []) GCSatomic).
Proof.
  intros st [T C W G].
  assert (Ls : forall x, In x (glists (grayagain st) (set_gcs (set_grayagain st []) GCSatomic)) <-> In x (glists [] st)).
  { intros x. rewrite !in_glists. cbn. tauto. }
  constructor.
  - destruct T as [T1 T2 T3]. constructor; assumption.
  - intros o ob X H Wo. destruct (C o ob X H Wo) as [A | [A | [A | A]]].
    + left; exact A.
    + right; left; exact A.
    + right; right; left. exact A.
    + right; right; right. destruct A as [[A1 [A2 A3]] | A]; [left | right; exact A].
      split; [intros _; discriminate|]. split; [exact A2|]. intros u I. specialize (A3 u I).
      unfold openok in *. cbn. destruct (uvs st u) as [[th i t|v]|]; auto.
  - intros o ob H Ho. destruct (W o ob H Ho) as [A | [A _]]; [left; exact A | discriminate].
  - destruct G as [N Col Tab]. constructor.
    + unfold glists in *. cbn in *. rewrite app_nil_r in N.
      assert (P : Permutation (gray st ++ grayagain st ++ weak st ++ allweak st ++ ephemeron st)
                    (gray st ++ weak st ++ allweak st ++ ephemeron st ++ grayagain st)).
      { apply Permutation_app_head. rewrite Permutation_app_comm. rewrite <- !app_assoc. reflexivity. }
      apply (Permutation_NoDup P N).
    + intros o I. apply Ls in I. apply (Col o I).
    + exact Tab.
Qed.

Lemma CI_unsave : forall m E st, CI m E None st -> m <> MA -> gray st = [] -> CI m [] None (set_gray st E).
Proof.
  intros m E st [T C W G] M Gn.
  assert (Ls : forall x, In x (glists [] (set_gray st E)) <-> In x (glists E st)).
  { intros x. rewrite !in_glists. cbn. rewrite Gn. cbn. tauto. }
  constructor.
  - destruct T as [T1 T2 T3]. constructor; assumption.
  - intros o ob X H Wo. destruct (C o ob X H Wo) as [A | [A | [A | A]]].
    + left; exact A.
    + rewrite Gn in A. destruct A.
    + right; left. unfold pend in A. destruct m; [congruence | exact A | exact A].
    + right; right; right. exact A.
  - intros o ob H Ho. destruct (W o ob H Ho) as [A | [A [B | [B | [B | B]]]]]; [left; exact A | discriminate | | |].
    + right. split; [exact A|]. right; left. exact B.
    + rewrite Gn in B. destruct B.
    + right. split; [exact A|]. right; right; left. exact B.
  - destruct G as [N Col Tab]. constructor.
    + unfold glists in *. cbn in *. rewrite Gn in N. rewrite app_nil_r. cbn in N.
      apply (Permutation_NoDup (l := grayagain st ++ weak st ++ allweak st ++ ephemeron st ++ E)); [|exact N].
      rewrite (Permutation_app_comm E). rewrite <- !app_assoc. reflexivity.
    + intros o I. apply Ls in I. apply (Col o I).
    + exact Tab.
Qed.

Record marked (st : gst) : Prop := {
  k_ci : CI MC [] None st;
  k_phase : phase MC st;
  k_gray : gray st = [];
  k_eph : forall o, In o (ephemeron st) -> EPH st o;
  k_tw : twnw st;
  k_cur : iswhite st (curth st) = false;
  k_reg : forall o, registry st = VObj o -> iswhite st o = false;
  k_mts : forall o, In (Some o) (mts st) -> iswhite st o = false
}.

Lemma shr_fields : forall st st', shr st st' -> fixedgc st' = fixedgc st /\ mainth st' = mainth st /\ curth st' = curth st /\
  registry st' = registry st /\ mts st' = mts st /\ memerr st' = memerr st /\ finobj st' = finobj st /\ tobefnz st' = tobefnz st /\
  strcache st' = strcache st.
Proof. intros st st' S. pose proof (sh_fld _ _ S) as F. tauto. Qed.

Theorem atomic_mark_ok : forall st, CI MA [] None st -> uvwf st -> fixstr st ->
  marked (atomic_mark st) /\ shr (set_gcs st GCSatomic) (atomic_mark st).
Proof.
  intros st C U F. unfold atomic_mark.
  set (s0 := set_gcs (set_grayagain st []) GCSatomic).
  assert (S0 : shr (set_gcs st GCSatomic) s0) by (apply (shr_lists (set_gcs st GCSatomic))).
  pose proof (CI_start st C) as C0. fold s0 in C0. set (E := grayagain st) in *.
  assert (P0 : phase MB s0) by reflexivity.
  assert (U0 : uvwf s0) by exact U.
  assert (F0 : fixstr s0) by exact F.
  (* marking the roots *)
  destruct (mark_ok s0 (curth s0) (c_typ _ _ _ _ C0)) as [M1 W1]. set (s1 := mark s0 (curth s0)) in *.
  pose proof (CI_mrel _ _ _ _ _ C0 M1) as C1.
  destruct (mark_val_ok s1 (registry s1) (c_typ _ _ _ _ C1)) as [M2 W2]. set (s2 := mark_val s1 (registry s1)) in *.
  pose proof (CI_mrel _ _ _ _ _ C1 M2) as C2.
  destruct (mark_opts_ok (mts s2) s2 (c_typ _ _ _ _ C2)) as [M3 W3]. fold (markmt s2) in *. set (s3 := markmt s2) in *.
  pose proof (CI_mrel _ _ _ _ _ C2 M3) as C3.
  pose proof (shr_trans _ _ _ (shr_mrel _ _ M1) (shr_mrel _ _ M2)) as S02.
  pose proof (shr_trans _ _ _ S02 (shr_mrel _ _ M3)) as S03.
  assert (R3 : iswhite s3 (curth s0) = false /\ (forall o, registry s0 = VObj o -> iswhite s3 o = false) /\ (forall o, In (Some o) (mts s0) -> iswhite s3 o = false)).
  { pose proof (mrel_fields _ _ M1) as Q1. pose proof (mrel_fields _ _ M2) as Q2.
    split; [apply (mrel_nw _ _ _ M3), (mrel_nw _ _ _ M2), W1|]. split.
    - intros o Ho. apply (mrel_nw _ _ _ M3), W2. decompose [and] Q1. congruence.
    - intros o Ho. apply W3. decompose [and] Q1. decompose [and] Q2. congruence. }
  (* propagate, remark, propagate *)
  destruct (propagateall_ok MB E s3 C3 (phase_shr _ _ _ P0 S03)) as [C4 [S4 G4]]. set (s4 := propagateall s3) in *.
  pose proof (shr_trans _ _ _ S03 S4) as S04.
  destruct (remarkupvals_ok E s4 C4 (uvwf_shr _ _ U0 S04)) as [C5 [S5 [I5 N5]]]. set (s5 := remarkupvals s4) in *.
  pose proof (shr_trans _ _ _ S04 S5) as S05.
  assert (P5 : phase MC s5) by (apply (phase_shr MC _ _ P0 S05)).
  destruct (propagateall_ok MC E s5 C5 P5) as [C6 [S6 G6]].
  assert (T6 : twnw (propagateall s5)) by (apply (twnw_propagate_n (nextid s5) MC E); [exact C5 | exact P5 | exact N5]).
  set (s6 := propagateall s5) in *. pose proof (shr_trans _ _ _ S05 S6) as S06.
  (* the saved list *)
  pose proof (CI_unsave MC E s6 C6 ltac:(discriminate) G6) as C7. set (s7 := set_gray s6 E) in *.
  assert (S7 : shr s6 s7) by apply shr_lists. pose proof (shr_trans _ _ _ S06 S7) as S07.
  assert (T7 : twnw s7) by exact T6.
  destruct (propagateall_ok MC [] s7 C7 (phase_shr MC _ _ P0 S07)) as [C8 [S8 G8]].
  assert (T8 : twnw (propagateall s7)) by (apply (twnw_propagate_n (nextid s7) MC []); [exact C7 | apply (phase_shr MC _ _ P0 S07) | exact T7]).
  set (s8 := propagateall s7) in *. pose proof (shr_trans _ _ _ S07 S8) as S08.
  destruct (convergeephemerons_ok s8 C8 (phase_shr MC _ _ P0 S08) G8 (fixstr_shr _ _ F0 S08)) as [C9 [S9 [G9 E9]]].
  pose proof (twnw_converge s8 C8 (phase_shr MC _ _ P0 S08) G8 (fixstr_shr _ _ F0 S08) T8) as T9.
  set (s9 := convergeephemerons s8) in *. pose proof (shr_trans _ _ _ S08 S9) as S09.
  assert (S39 : shr s3 s9).
  { apply (shr_trans _ _ _ S4). apply (shr_trans _ _ _ S5). apply (shr_trans _ _ _ S6). apply (shr_trans _ _ _ S7). apply (shr_trans _ _ _ S8), S9. }
  split; [|apply (shr_trans _ _ _ S0 S09)].
  destruct (shr_fields _ _ S09) as [_ [_ [Fc [Fr [Fm _]]]]]. destruct R3 as [R1 [R2 R3]].
  constructor.
  - exact C9.
  - apply (phase_shr MC _ _ P0 S09).
  - exact G9.
  - exact E9.
  - exact T9.
  - rewrite Fc. apply (shr_nw _ _ _ S39), R1.
  - intros o Ho. apply (shr_nw _ _ _ S39), R2. congruence.
  - intros o Ho. apply (shr_nw _ _ _ S39), R3. congruence.
Qed.

(** ** End of the atomic phase *)

Record closed (st : gst) : Prop := {
  z_typ : typ st;
  z_full : forall o ob, heap st o = Some ob -> iswhite st o = false -> full MC st ob;
  z_tw : forall o ob, heap st o = Some ob -> o_open ob <> [] -> In o (twups st) \/ iswhite st o = true;
  z_twnw : twnw st;
  z_cur : iswhite st (curth st) = false;
  z_reg : forall o, registry st = VObj o -> iswhite st o = false;
  z_mts : forall o, In (Some o) (mts st) -> iswhite st o = false;
  z_cache : forall o, In o (strcache st) -> iswhite st o = false;
  z_fnz : forall o, In o (tobefnz st) -> iswhite st o = false
}.

Lemma str_full : forall m st o ob, typ st -> heap st o = Some ob -> o_kind ob = KStr -> full m st ob.
Proof.
  intros m st o ob T H K. pose proof (t_kwf _ T o ob H) as W. unfold kwf in W. rewrite K in W.
  destruct W as [W1 [W2 [W3 [W4 [W5 W6]]]]]. split; [congruence|]. split.
  - intros b [R | [R | [[v R] | [[k R] | R]]]]; [congruence | rewrite W2 in R; destruct R | rewrite W3 in R; destruct R | rewrite W3 in R; destruct R | congruence].
  - intros u I. rewrite W4 in I. destruct I.
Qed.

Lemma VNW_eq : forall st st' o, VNW st o -> heap st' = heap st -> VNW st' o.
Proof.
  intros st st' o H E ob Hb. rewrite E in Hb. destruct (H ob Hb) as [A B].
  assert (W : forall x, iswhite st' x = iswhite st x) by (intros; unfold iswhite; rewrite E; reflexivity). split.
  - intros x I. rewrite W. apply A, I.
  - intros k v I. specialize (B k v I). unfold valnw, valiswhite in *. destruct v; auto. rewrite W. exact B.
Qed.

Theorem atomic_fin_ok : forall st, marked st -> fixstr st -> iswhite st (memerr st) = false ->
  (forall o, In o (tobefnz st) -> iswhite st o = false) ->
  closed (atomic_fin st) /\ shr0 st (atomic_fin st) /\ gcs (atomic_fin st) = GCSatomic /\
  (exists s, shr st s /\ strm st s /\ finobj (atomic_fin st) = filter (fun o => negb (iswhite s o)) (finobj st) /\
     tobefnz (atomic_fin st) = tobefnz st ++ filter (iswhite s) (finobj st)) /\
  incl (strcache (atomic_fin st)) (memerr st :: strcache st).
Proof.
  intros st [C Ph G Ep Tw Cu Re Mt] F Me Fz. unfold atomic_fin.
  destruct (clearbyvalues_ok (weak st) [] st C) as [C1 [L1 V1]].
  { intros o I. apply (glist_nw [] st o (c_gl _ _ _ _ C)). apply in_glists. tauto. }
  set (s1 := clearbyvalues st (weak st)) in *.
  destruct (clearbyvalues_ok (allweak s1) [] s1 C1) as [C2 [L2 V2]].
  { intros o I. apply (glist_nw [] s1 o (c_gl _ _ _ _ C1)). apply in_glists. tauto. }
  set (s2 := clearbyvalues s1 (allweak s1)) in *.
  pose proof (clr_trans _ _ _ L1 L2) as L02. destruct L02 as [S02 [M02 [G02 [W02 [A02 [E02 [T02 _]]]]]]].
  assert (VW : forall o, In o (weak s2) -> VNW s2 o).
  { intros o I. rewrite W02 in I. apply (VNW_shr s1); [apply V1, I | apply L2]. }
  assert (VA : forall o, In o (allweak s2) -> VNW s2 o).
  { intros o I. apply V2. rewrite <- (proj1 (proj2 (proj2 (proj2 (proj2 L2))))). exact I. }
  set (s3 := separatetobefnz s2) in *.
  assert (C3 : CI MC [] None s3) by (apply (CI_same MC [] None s2 s3 C2); reflexivity).
  assert (P3 : phase MC s3) by (apply (phase_shr MC _ _ Ph S02)).
  assert (F3 : fixstr s3) by (apply (fixstr_shr _ _ F S02)).
  assert (Z03 : shr0 st s3).
  { apply (shr0_trans _ s2); [apply shr0_shr, S02 | apply shr0_same; repeat split]. }
  assert (T3 : twnw s3) by (apply (twnw_step _ _ Tw S02 T02)).
  unfold markbeingfnz. destruct (mark_list_ok (tobefnz s3) s3 (c_typ _ _ _ _ C3)) as [M4 W4].
  set (s4 := fold_left mark (tobefnz s3) s3) in *. pose proof (CI_mrel _ _ _ _ _ C3 M4) as C4. pose proof (shr_mrel _ _ M4) as S4.
  assert (T4 : twnw s4) by (apply (twnw_step _ _ T3 S4); apply (mrel_fields _ _ M4)).
  pose proof (phase_shr _ _ _ P3 S4) as P4.
  destruct (propagateall_ok MC [] s4 C4 P4) as [C5 [S5 G5]].
  pose proof (sfx_propagateall s4) as X5.
  assert (T5 : twnw (propagateall s4)) by (apply (twnw_propagate_n (nextid s4) MC []); [exact C4 | exact P4 | exact T4]).
  set (s5 := propagateall s4) in *. pose proof (shr_trans _ _ _ S4 S5) as S35.
  pose proof (phase_shr _ _ _ P3 S35) as P5. pose proof (fixstr_shr _ _ F3 S35) as F5.
  destruct (convergeephemerons_ok s5 C5 P5 G5 F5) as [C6 [S6 [G6 E6]]].
  pose proof (sfx_converge s5) as X6. pose proof (twnw_converge s5 C5 P5 G5 F5 T5) as T6.
  set (s6 := convergeephemerons s5) in *. pose proof (shr_trans _ _ _ S35 S6) as S36.
  (* the old elements of the lists *)
  assert (X36 : sfx s2 s6).
  { apply (sfx_trans _ s4); [|apply (sfx_trans _ s5); assumption].
    apply sfx_eq; [transitivity (weak s3); [apply (mrel_fields _ _ M4) | reflexivity] | transitivity (allweak s3); [apply (mrel_fields _ _ M4) | reflexivity]]. }
  assert (VW6 : forall o, In o (weak s2) -> VNW s6 o) by (intros o I; apply (VNW_shr s3); [apply (VNW_eq s2); [apply VW, I | reflexivity] | exact S36]).
  assert (VA6 : forall o, In o (allweak s2) -> VNW s6 o) by (intros o I; apply (VNW_shr s3); [apply (VNW_eq s2); [apply VA, I | reflexivity] | exact S36]).
  (* clearing *)
  destruct (clearbykeys_ok (ephemeron s6) [] s6 C6) as [C7 [L7 K7]].
  { intros o I. apply (glist_nw [] s6 o (c_gl _ _ _ _ C6)). apply in_glists. tauto. }
  set (s7 := clearbykeys s6 (ephemeron s6)) in *.
  destruct (clearbykeys_ok (allweak s7) [] s7 C7) as [C8 [L8 K8]].
  { intros o I. apply (glist_nw [] s7 o (c_gl _ _ _ _ C7)). apply in_glists. tauto. }
  set (s8 := clearbykeys s7 (allweak s7)) in *. pose proof (clr_trans _ _ _ L7 L8) as L68.
  assert (Up : forall l orig x, In x (upto l orig) -> In x l).
  { intros l orig x I. unfold upto in I. apply (incl_tran (m := firstn (length l - length orig) l)) with (n := l) in I; [exact I | apply incl_refl |].
    intros y J. clear -J. revert J. generalize (length l - length orig) as n. induction l as [|a l IH]; intros n J; destruct n; cbn in J; try contradiction.
    destruct J as [<- | J]; [left; reflexivity | right; apply (IH n J)]. }
  destruct (clearbyvalues_ok (upto (weak s8) (weak s2)) [] s8 C8) as [C9 [L9 V9]].
  { intros o I. apply Up in I. apply (glist_nw [] s8 o (c_gl _ _ _ _ C8)). apply in_glists. tauto. }
  set (s9 := clearbyvalues s8 (upto (weak s8) (weak s2))) in *. pose proof (clr_trans _ _ _ L68 L9) as L69.
  destruct (clearbyvalues_ok (upto (allweak s9) (allweak s2)) [] s9 C9) as [C10 [L10 V10]].
  { intros o I. apply Up in I. apply (glist_nw [] s9 o (c_gl _ _ _ _ C9)). apply in_glists. tauto. }
  set (s10 := clearbyvalues s9 (upto (allweak s9) (allweak s2))) in *. pose proof (clr_trans _ _ _ L69 L10) as L610.
  destruct L610 as [S610 [M610 [G610 [W610 [A610 [E610 [T610 _]]]]]]].
  assert (S310 : shr s3 s10) by (apply (shr_trans _ _ _ S36 S610)).
  assert (Z10 : shr0 st s10) by (apply (shr0_trans _ _ _ Z03), shr0_shr, S310).
  assert (T10 : twnw s10) by (apply (twnw_step _ _ T6 S610 T610)).
  pose proof (c_typ _ _ _ _ C10) as Ty10.
  assert (F10 : fixstr s10) by (apply (fixstr_shr _ _ F3 S310)).
  assert (Full : forall o ob, heap s10 o = Some ob -> iswhite s10 o = false -> full MC s10 ob).
  { intros o ob H W. destruct (c_tc _ _ _ _ C10 o ob ltac:(discriminate) H W) as [A | [A | [A | A]]].
    - specialize (F10 o A). unfold kind_of in F10. rewrite H in F10. apply (str_full MC s10 o ob Ty10 H). congruence.
    - rewrite G610, G6 in A. destruct A.
    - destruct A.
    - destruct A as [A | [[A [Am Ak]] | [[A Am] | [A [Am Av]]]]]; [exact A | | |].
      + (* weak *)
        assert (V : VNW s10 o).
        { rewrite W610 in A. destruct X36 as [[l Xw] _]. destruct (upto_in (weak s6) (weak s2) l o Xw A) as [J | J].
          - apply (VNW_shr s9); [|apply L10]. apply V9. destruct L68 as [_ [_ [_ [-> _]]]]. exact J.
          - apply (VNW_shr s6); [apply VW6, J | exact S610]. }
        destruct (V ob H) as [Va Vh].
        apply (full_table MC s10 o ob Ty10 H); [|exact Am | exact Va | intros k v I; split; [intros b ->; apply (Ak b v I) | apply (Vh k v I)]].
        assert (KT : kind_of s10 o = Some KTable) by (apply (g_tab _ _ (c_gl _ _ _ _ C10)); rewrite !in_app_iff; tauto).
        unfold kind_of in KT. rewrite H in KT. congruence.
      + (* allweak *)
        assert (KT : kind_of s10 o = Some KTable) by (apply (g_tab _ _ (c_gl _ _ _ _ C10)); rewrite !in_app_iff; tauto).
        rewrite A610 in A.
        assert (V : VNW s10 o).
        { destruct X36 as [_ [l Xa]]. destruct (upto_in (allweak s6) (allweak s2) l o Xa A) as [J | J].
          - apply V10. destruct L69 as [_ [_ [_ [_ [-> _]]]]]. exact J.
          - apply (VNW_shr s6); [apply VA6, J | exact S610]. }
        assert (Ky : KNW s10 o).
        { apply (KNW_shr s8); [|apply (shr_trans _ s9); [apply L9 | apply L10]]. apply K8. destruct L7 as [_ [_ [_ [_ [-> _]]]]]. exact A. }
        destruct (V ob H) as [Va Vh].
        apply (full_table MC s10 o ob Ty10 H); [|exact Am | exact Va | intros k v I; split; [intros b ->; apply (Ky ob H b v I) | apply (Vh k v I)]].
        unfold kind_of in KT. rewrite H in KT. congruence.
      + (* ephemeron *)
        assert (KT : kind_of s10 o = Some KTable) by (apply (g_tab _ _ (c_gl _ _ _ _ C10)); rewrite !in_app_iff; tauto).
        rewrite E610 in A.
        assert (Ky : KNW s10 o).
        { apply (KNW_shr s7); [|apply (shr_trans _ s8); [apply L8 | apply (shr_trans _ s9); [apply L9 | apply L10]]]. apply K7, A. }
        pose proof (EPH_shr s6 s10 o (E6 o A) S610 M610) as Eo.
        apply (full_table MC s10 o ob Ty10 H); [|exact Am | exact Av |].
        * unfold kind_of in KT. rewrite H in KT. congruence.
        * intros k v I. assert (Kk : keynw s10 k) by (intros b ->; apply (Ky ob H b v I)). split; [exact Kk|].
          destruct v as [|z|w]; try reflexivity.
          destruct (Eo ob H k (VObj w) I ltac:(discriminate)) as [[b [-> [Wb _]]] | Q]; [|exact Q].
          rewrite (Kk b eq_refl) in Wb. discriminate. }
  assert (Nw : forall o, iswhite st o = false -> iswhite s10 o = false) by (intros o; apply (shr0_nw _ _ _ Z10)).
  pose proof (s0_fld _ _ Z10) as Fl.
  assert (St : strcache s10 = strcache st).
  { destruct (shr_fields _ _ S310) as [_ [_ [_ [_ [_ [_ [_ [_ ->]]]]]]]]. change (strcache s3) with (strcache s2). apply (shr_fields _ _ S02). }
  assert (Tf : tobefnz s10 = tobefnz s3) by (apply (shr_fields _ _ S310)).
  split; [|split; [|split; [|split]]].
  - constructor.
    + destruct Ty10 as [T1' T2' T3']. constructor; assumption.
    + exact Full.
    + intros o ob H Ho. destruct (c_tw _ _ _ _ C10 o ob H Ho) as [A | [_ [A | [A | [A | A]]]]]; [left; exact A | discriminate | right; exact A | | destruct A].
      rewrite G610, G6 in A. destruct A.
    + exact T10.
    + change (iswhite s10 (curth s10) = false). decompose [and] Fl. replace (curth s10) with (curth st) by congruence. apply Nw, Cu.
    + intros o Ho. change (iswhite s10 o = false). apply Nw, Re. change (registry s10 = VObj o) in Ho. decompose [and] Fl. congruence.
    + intros o Ho. change (iswhite s10 o = false). apply Nw, Mt. change (In (Some o) (mts s10)) in Ho. decompose [and] Fl. congruence.
    + intros o Ho. change (iswhite s10 o = false). cbn in Ho. apply in_map_iff in Ho. destruct Ho as [x [<- Ix]].
      destruct (iswhite s10 x) eqn:Wx; [|exact Wx]. decompose [and] Fl. replace (memerr s10) with (memerr st) by congruence. apply Nw, Me.
    + intros o Ho. change (iswhite s10 o = false). change (In o (tobefnz s10)) in Ho. rewrite Tf in Ho.
      apply (shr_nw s4 s10); [|apply W4; exact Ho].
      apply (shr_trans _ _ _ S5). apply (shr_trans _ _ _ S6). exact S610.
  - apply (shr0_trans _ _ _ Z10). apply shr0_same; repeat split.
  - change (gcs s10 = GCSatomic). rewrite (shr_gcs _ _ S310). exact P3.
  - exists s2. split; [exact S02|]. split; [exact M02|].
    assert (Fo : finobj s10 = finobj s3) by (apply (shr_fields _ _ S310)).
    destruct (shr_fields _ _ S02) as [_ [_ [_ [_ [_ [_ [Ff [Ft _]]]]]]]].
    split.
    + change (finobj s10 = filter (fun o => negb (iswhite s2 o)) (finobj st)). rewrite Fo. cbn. rewrite Ff. reflexivity.
    + change (tobefnz s10 = tobefnz st ++ filter (iswhite s2) (finobj st)). rewrite Tf. cbn. rewrite Ff, Ft. reflexivity.
  - intros x Hx. cbn in Hx. apply in_map_iff in Hx. destruct Hx as [y [<- Iy]]. rewrite St in Iy.
    destruct (iswhite s10 y); [left | right; exact Iy]. decompose [and] Fl. congruence.
Qed.
