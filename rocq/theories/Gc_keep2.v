(** What the end of the atomic phase and the sweep leave in place: in a table that is
    marked, every entry and slot whose objects are marked or strings. *)
From Coq Require Import ZArith List Bool Arith Lia.
From Verif Require Import Base Gc_model Gc_spec Gc_facts Gc_tri Gc_fin Gc_core Gc_mark Gc_sweep Gc_inv Gc_mut Gc_upv Gc_exec Gc_dead Gc_deadm Gc_hn Gc_deads Gc_free_spec Gc_free_proofs Gc_weak_spec Gc_atomic Gc_keep Gc_trav Gc_prop.
Import ListNotations.
Local Open Scope nat_scope.

Definition safe (st : gst) (o : option id) : Prop :=
  match o with Some x => kind_of st x = Some KStr \/ iswhite st x = false | None => True end.
Definition rkeep (st : gst) (a b : obj) : Prop :=
  o_kind b = o_kind a /\
  (forall k v, In (k, v) (o_hash a) -> v <> VNil -> safe st (kobj k) -> safe st (vobj v) -> In (k, v) (o_hash b)) /\
  (forall i v, nth_error (o_vals a) i = Some v -> safe st (vobj v) -> nth_error (o_vals b) i = Some v).
Record Rk (st st' : gst) : Prop := {
  rk_kind : forall x, kind_of st' x = kind_of st x;
  rk_nw : forall x, iswhite st x = false -> iswhite st' x = false;
  rk_keep : forall t a, heap st t = Some a -> o_kind a <> KThread -> exists b, heap st' t = Some b /\ rkeep st a b
}.
Lemma safe_step : forall st st' o, (forall x, kind_of st' x = kind_of st x) -> (forall x, iswhite st x = false -> iswhite st' x = false) -> safe st o -> safe st' o.
Proof. intros st st' [x|] K W H; [|exact H]. destruct H as [H|H]; [left; rewrite K; exact H | right; apply W, H]. Qed.
Lemma Rk_trans : forall a b c, Rk a b -> Rk b c -> Rk a c.
Proof.
  intros a b c [A1 A2 A3] [B1 B2 B3]. constructor; [intros x; rewrite B1; apply A1 | auto|].
  intros t x H N. destruct (A3 t x H N) as [y [Hy [Y1 [Y2 Y3]]]]. destruct (B3 t y Hy ltac:(congruence)) as [z [Hz [Z1 [Z2 Z3]]]]. exists z. split; [exact Hz|].
  assert (S : forall o, safe a o -> safe b o) by (intros o; apply safe_step; assumption). split; [congruence|]. split.
  - intros k v I V Sk Sv. apply Z2; auto.
  - intros i v I Sv. apply Z3; auto.
Qed.
Lemma rkeep_refl : forall st a, rkeep st a a. Proof. intros st a. split; [reflexivity|]. split; auto. Qed.
Lemma Rk_refl : forall st, Rk st st.
Proof. intros st. constructor; auto. intros t a H _. exists a. split; [exact H | apply rkeep_refl]. Qed.
Lemma Rk_Kp : forall st st', Kp st st' -> Rk st st'.
Proof.
  intros st st' K. constructor; [intros x; exact (Kp_kind _ _ x K) | intros x; exact (Kp_nw _ _ x K)|].
  intros t a H N. destruct (kp_some _ _ K t a H) as [b [Hb O]]. exists b. split; [exact Hb|]. split; [exact (os_kind _ _ (ok_sub _ _ O))|]. split.
  - intros k v I V _ _. exact (ok_hash _ _ O k v I V).
  - intros i v I _. rewrite (ok_vals _ _ O N). exact I.
Qed.

(** ** Clearing *)
Lemma iscleared_safe : forall st o, safe st o -> snd (iscleared st o) = false.
Proof.
  intros st [x|] H; [|reflexivity]. cbn. destruct H as [H|H]; [rewrite H; reflexivity|]. destruct (kind_of st x) as [[]|]; cbn; try exact H; reflexivity.
Qed.
Lemma safe_strmark : forall st st' o, strmark st st' -> safe st o -> safe st' o.
Proof. intros st st' o [M _]. apply safe_step; [intros x; apply (mrel_kind _ _ _ M) | intros x; apply (mrel_nw _ _ _ M)]. Qed.
Lemma removeentry_id : forall k v, v <> VNil -> removeentry (k, v) = (k, v).
Proof. intros k v N. destruct k, v; try reflexivity; congruence. Qed.
Lemma ck_keep : forall h st, typ st -> forall k v, In (k, v) h -> v <> VNil -> safe st (kobj k) -> In (k, v) (snd (ck_loop st h)).
Proof.
  induction h as [|[k0 v0] h IH]; intros st T k v I N S; [destruct I|]. cbn [ck_loop].
  destruct I as [I|I].
  - injection I as -> ->. destruct (isnil v) eqn:E; [destruct v; [congruence|discriminate|discriminate]|]. assert (X := iscleared_safe _ _ S).
    destruct (iscleared st (kobj k)) as [s c]. cbn in X. subst c. destruct (ck_loop s h) as [s2 h2]. cbn [snd]. left. apply removeentry_id, N.
  - set (p := if isnil v0 then (st, false) else iscleared st (kobj k0)).
    assert (Sm : strmark st (fst p)) by (unfold p; destruct (isnil v0); [apply strmark_refl | apply iscleared_strmark, T]). destruct p as [s c]. cbn [fst] in Sm.
    assert (X := IH s (typ_mrel _ _ T (proj1 Sm)) k v I N (safe_strmark _ _ _ Sm S)). destruct (ck_loop s h) as [s2 h2]. cbn [snd] in *. right. exact X.
Qed.
Lemma cv_keep : forall h st, typ st -> forall k v, In (k, v) h -> v <> VNil -> safe st (vobj v) -> In (k, v) (snd (cv_loop st h)).
Proof.
  induction h as [|[k0 v0] h IH]; intros st T k v I N S; [destruct I|]. cbn [cv_loop].
  destruct I as [I|I].
  - injection I as -> ->. assert (X := iscleared_safe _ _ S).
    destruct (iscleared st (vobj v)) as [s c]. cbn in X. subst c. destruct (cv_loop s h) as [s2 h2]. cbn [snd]. left. apply removeentry_id, N.
  - assert (Sm := iscleared_strmark st (vobj v0) T). destruct (iscleared st (vobj v0)) as [s c]. cbn [fst] in Sm.
    assert (X := IH s (typ_mrel _ _ T (proj1 Sm)) k v I N (safe_strmark _ _ _ Sm S)). destruct (cv_loop s h) as [s2 h2]. cbn [snd] in *. right. exact X.
Qed.
Lemma ca_keep : forall l st, typ st -> forall i v, nth_error l i = Some v -> safe st (vobj v) -> nth_error (snd (cv_arr st l)) i = Some v.
Proof.
  induction l as [|v0 l IH]; intros st T i v I S; [destruct i; discriminate|]. cbn [cv_arr].
  destruct i as [|i]; cbn [nth_error] in I.
  - injection I as ->. assert (X := iscleared_safe _ _ S). destruct (iscleared st (vobj v)) as [s c]. cbn in X. subst c. destruct (cv_arr s l) as [s2 l2]. reflexivity.
  - assert (Sm := iscleared_strmark st (vobj v0) T). destruct (iscleared st (vobj v0)) as [s c]. cbn [fst] in Sm.
    assert (X := IH s (typ_mrel _ _ T (proj1 Sm)) i v I (safe_strmark _ _ _ Sm S)). destruct (cv_arr s l) as [s2 l2]. cbn [snd] in *. exact X.
Qed.
Lemma strmark_heap : forall st st' o a, strmark st st' -> heap st o = Some a -> exists c, heap st' o = Some (with_col a c).
Proof. intros st st' o a [M _] H. destruct (r_some _ _ M o a H) as [b [Hb [E _]]]. exists (o_col b). rewrite Hb, E. reflexivity. Qed.
Definition CR (st st' : gst) : Prop := clr st st' /\ Rk st st'.
Lemma CR_refl : forall st, CR st st. Proof. intros. split; [apply clr_refl | apply Rk_refl]. Qed.
Lemma CR_trans : forall a b c, CR a b -> CR b c -> CR a c.
Proof. intros a b c [A1 A2] [B1 B2]. split; [exact (clr_trans _ _ _ A1 B1) | exact (Rk_trans _ _ _ A2 B2)]. Qed.
Lemma Rk_strmark : forall st st', strmark st st' -> Rk st st'. Proof. intros st st' S. apply Rk_Kp, Kp_mrel, S. Qed.
(** One table rewritten after some strings have been marked. *)
Lemma CR_put : forall st s o ob f, heap st o = Some ob -> strmark st s ->
  (forall c, osub (with_col ob c) (f (with_col ob c)) /\ o_col (f (with_col ob c)) = c) ->
  (forall c, rkeep st ob (f (with_col ob c))) -> CR st (modify s o f).
Proof.
  intros st s o ob f H S F K. destruct (strmark_heap _ _ _ _ S H) as [c Hc].
  assert (Cl : clr s (modify s o f)) by (apply clr_modify; right; intros a Ha; rewrite Hc in Ha; injection Ha as <-; apply F).
  assert (Ct := clr_trans _ _ _ (clr_strmark _ _ S) Cl). split; [exact Ct|].
  constructor; [intros x; exact (shr_kind _ _ x (proj1 Ct)) | intros x; exact (shr_nw _ _ x (proj1 Ct))|].
  intros t a Ht N. rewrite heap_modify. destruct (Nat.eqb_spec t o) as [->|Ne].
  - rewrite Hc. cbn. exists (f (with_col ob c)). split; [reflexivity|]. assert (a = ob) by congruence. subst a. apply K.
  - destruct (rk_keep _ _ (Rk_strmark _ _ S) t a Ht N) as [b [Hb B]]. exists b. split; assumption.
Qed.
Lemma CR_clearkeys1 : forall st o, typ st -> CR st (clearkeys1 st o).
Proof.
  intros st o T. unfold clearkeys1. destruct (heap st o) as [ob|] eqn:H; [|apply CR_refl].
  destruct (ck_loop_ok (o_hash ob) st T) as [S [E _]]. assert (K := ck_keep (o_hash ob) st T). destruct (ck_loop st (o_hash ob)) as [s h]. cbn [fst snd] in *.
  apply (CR_put st s o ob _ H S).
  - intros c. split; [apply osub_hash; exact E | reflexivity].
  - intros c. split; [reflexivity|]. split; [intros k v I N Sk _; exact (K k v I N Sk) | intros i v I _; exact I].
Qed.
Lemma CR_clearvals1 : forall st o, typ st -> CR st (clearvals1 st o).
Proof.
  intros st o T. unfold clearvals1. destruct (heap st o) as [ob|] eqn:H; [|apply CR_refl].
  destruct (cv_arr_ok (o_vals ob) st T) as [S1 [E1 _]]. assert (K1 := ca_keep (o_vals ob) st T). destruct (cv_arr st (o_vals ob)) as [s1 l]. cbn [fst snd] in *.
  assert (T1 := typ_mrel _ _ T (proj1 S1)).
  destruct (cv_loop_ok (o_hash ob) s1 T1) as [S2 [E2 _]]. assert (K2 := cv_keep (o_hash ob) s1 T1). destruct (cv_loop s1 (o_hash ob)) as [s2 h]. cbn [fst snd] in *.
  apply (CR_put st s2 o ob _ H (strmark_trans _ _ _ S1 S2)).
  - intros c. split; [|reflexivity]. apply (osub_trans _ (with_vals (with_col ob c) l)); [apply osub_vals; exact E1 | apply osub_hash; exact E2].
  - intros c. split; [reflexivity|]. split.
    + intros k v I N _ Sv. exact (K2 k v I N (safe_strmark _ _ _ S1 Sv)).
    + intros i v I Sv. exact (K1 i v I Sv).
Qed.
Lemma CR_fold : forall (f : gst -> id -> gst), (forall s o, typ s -> CR s (f s o)) -> forall l st, typ st -> CR st (fold_left f l st).
Proof.
  intros f F. induction l as [|o l IH]; intros st T; cbn [fold_left]; [apply CR_refl|]. assert (K := F st o T).
  apply (CR_trans _ _ _ K), IH. exact (typ_shr _ _ T (proj1 (proj1 K))).
Qed.
Lemma mdo_shr : forall st st' o m, shr st st' -> mdo st o m -> mdo st' o m.
Proof. intros st st' o m S M b Hb. destruct (shr_inv _ _ _ _ S Hb) as [a [Ha O]]. rewrite (weakmode_shr _ _ _ _ S O). exact (M a Ha). Qed.
Lemma LM_clr : forall st st', clr st st' -> LM st -> LM st'.
Proof.
  intros st st' [S [_ [_ [W [A [E _]]]]]] [L1 L2 L3]. constructor.
  - rewrite W. intros o I. exact (mdo_shr _ _ _ _ S (L1 o I)).
  - rewrite E. intros o I. destruct (L2 o I) as [X Y]. split; [exact (mdo_shr _ _ _ _ S X) | rewrite (shr_kind _ _ _ S); exact Y].
  - rewrite A. intros o I b Hb. destruct (shr_inv _ _ _ _ S Hb) as [a [Ha O]]. rewrite (weakmode_shr _ _ _ _ S O). destruct (L3 o I a Ha) as [X|[X [Y Z]]]; [left; exact X | right].
    split; [exact X|]. split.
    + intros Kt x J. apply (shr_nw _ _ _ S), Y; [rewrite <- (os_kind _ _ O); exact Kt|].
      exact (Forall2_vsub_in _ _ _ (os_vals _ _ O) J).
    + intros k v J N. apply (valnw_shr _ _ _ S), (Z k v); [exact (entry_shr _ _ _ _ O J N) | exact N].
Qed.
(** ** The end of the atomic phase *)
Definition RL (st st' : gst) : Prop := typ st' /\ LM st' /\ Rk st st'.
Lemma RL_step : forall (f : gst -> gst) st s, (forall s', typ s' -> LM s' -> RL s' (f s')) -> RL st s -> RL st (f s).
Proof. intros f st s F [T [L R]]. destruct (F s T L) as [T2 [L2 R2]]. split; [exact T2|]. split; [exact L2 | exact (Rk_trans _ _ _ R R2)]. Qed.
Lemma RL_CR : forall st st', typ st -> LM st -> CR st st' -> RL st st'.
Proof. intros st st' T L [C R]. split; [exact (typ_shr _ _ T (proj1 C))|]. split; [exact (LM_clr _ _ C L) | exact R]. Qed.
Lemma RL_KLM : forall st st', typ st -> KLM st st' -> RL st st'.
Proof. intros st st' T [K L]. split; [exact (typ_Kp _ _ T K)|]. split; [exact L | exact (Rk_Kp _ _ K)]. Qed.
Lemma RL_KL : forall st st', typ st -> LM st -> KL st st' -> RL st st'.
Proof. intros st st' T L K. apply RL_KLM; [exact T | apply KLM_intro; assumption]. Qed.
Lemma RL_vals : forall l st, typ st -> LM st -> RL st (clearbyvalues st l).
Proof. intros l st T L. apply RL_CR; [exact T | exact L | apply CR_fold; [exact CR_clearvals1 | exact T]]. Qed.
Lemma RL_keys : forall l st, typ st -> LM st -> RL st (clearbykeys st l).
Proof. intros l st T L. apply RL_CR; [exact T | exact L | apply CR_fold; [exact CR_clearkeys1 | exact T]]. Qed.
Lemma RL_atomic_fin : forall st, typ st -> LM st -> RL st (atomic_fin st).
Proof.
  intros st T L. unfold atomic_fin. cbv zeta.
  set (s1 := clearbyvalues st (weak st)). assert (A1 : RL st s1) by (apply RL_vals; assumption). clearbody s1.
  assert (A2 := RL_step (fun s => clearbyvalues s (allweak s)) st s1 ltac:(intros; apply RL_vals; assumption) A1). cbv beta in A2.
  set (s2 := clearbyvalues s1 (allweak s1)) in *. clearbody s2.
  apply (RL_step clearcache); [intros; apply RL_KL; [assumption | assumption | apply KL_same; reflexivity]|].
  apply (RL_step (fun s => clearbyvalues s (upto (allweak s) (allweak s2)))); [intros; apply RL_vals; assumption|].
  apply (RL_step (fun s => clearbyvalues s (upto (weak s) (weak s2)))); [intros; apply RL_vals; assumption|].
  apply (RL_step (fun s => clearbykeys s (allweak s))); [intros; apply RL_keys; assumption|].
  apply (RL_step (fun s => clearbykeys s (ephemeron s))); [intros; apply RL_keys; assumption|].
  apply (RL_step convergeephemerons); [intros; apply RL_KLM; [assumption | apply KLM_converge; assumption]|].
  apply (RL_step propagateall); [intros; apply RL_KL; [assumption | assumption | apply KL_propagateall; assumption]|].
  apply (RL_step markbeingfnz); [intros; apply RL_KL; [assumption | assumption | apply KL_markbeingfnz; assumption]|].
  apply (RL_step separatetobefnz); [intros; apply RL_KL; [assumption | assumption | apply KL_same; reflexivity]|]. exact A2.
Qed.

(** ** Sweep *)
Definition tsame (a b : obj) : Prop := o_kind b = o_kind a /\ o_hash b = o_hash a /\ (o_kind a <> KThread -> o_vals b = o_vals a).
Definition SW (st st' : gst) : Prop := cw st' = cw st /\ forall t a, heap st t = Some a -> isdead st t = false ->
  exists b, heap st' t = Some b /\ isdead st' t = false /\ tsame a b.
Lemma tsame_refl : forall a, tsame a a. Proof. intros a. split; [reflexivity|]. split; [reflexivity | auto]. Qed.
Lemma tsame_trans : forall a b c, tsame a b -> tsame b c -> tsame a c.
Proof. intros a b c [A1 [A2 A3]] [B1 [B2 B3]]. split; [congruence|]. split; [congruence|]. intros N. rewrite B3; [auto | congruence]. Qed.
Lemma SW_refl : forall st, SW st st.
Proof. intros st. split; [reflexivity|]. intros t a H D. exists a. split; [exact H|]. split; [exact D | apply tsame_refl]. Qed.
Lemma SW_trans : forall a b c, SW a b -> SW b c -> SW a c.
Proof.
  intros a b c [A1 A2] [B1 B2]. split; [congruence|]. intros t x H D. destruct (A2 t x H D) as [y [Hy [Dy Ty]]]. destruct (B2 t y Hy Dy) as [z [Hz [Dz Tz]]].
  exists z. split; [exact Hz|]. split; [exact Dz | exact (tsame_trans _ _ _ Ty Tz)].
Qed.
Lemma SW_same : forall st st', heap st' = heap st -> cw st' = cw st -> SW st st'.
Proof. intros st st' H C. split; [exact C|]. intros t a Ht D. exists a. rewrite H. split; [exact Ht|]. split; [|apply tsame_refl]. unfold isdead in *. rewrite H, C. exact D. Qed.
Lemma SW_modify : forall st o f, (forall a, heap st o = Some a -> tsame a (f a) /\ (o_col (f a) = o_col a \/ o_col (f a) = White (cw st))) -> SW st (modify st o f).
Proof.
  intros st o f F. split; [rewrite modify_rest; reflexivity|]. intros t a H D.
  unfold isdead in *. rewrite heap_modify. rewrite modify_rest. cbn [cw set_heap]. rewrite H in D. destruct (Nat.eqb_spec t o) as [->|N].
  - rewrite H. cbn. destruct (F a H) as [T C]. exists (f a). split; [reflexivity|]. split; [|exact T].
    destruct C as [C|C]; rewrite C; [exact D|]. destruct (cw st); reflexivity.
  - rewrite H. exists a. split; [reflexivity|]. split; [exact D | apply tsame_refl].
Qed.
Lemma SW_makewhite : forall st o, SW st (makewhite st o).
Proof. intros st o. apply SW_modify. intros a _. split; [split; [reflexivity|]; split; [reflexivity|]; auto | right; reflexivity]. Qed.
Lemma fold_close : forall l st, heap (fold_left close_upv l st) = heap st /\ cw (fold_left close_upv l st) = cw st.
Proof. induction l as [|u l IH]; intros st; [split; reflexivity|]. cbn [fold_left]. destruct (IH (close_upv st u)) as [A B]. split; [rewrite A | rewrite B]; reflexivity. Qed.
Lemma SW_free : forall st o, isdead st o = true -> SW st (freeobj st o).
Proof.
  intros st o Do. unfold freeobj. destruct (heap st o) as [ob|] eqn:H; [|apply SW_refl].
  set (s := match o_kind ob with KThread => _ | _ => _ end).
  assert (S : heap s = heap st /\ cw s = cw st) by (unfold s; destruct (o_kind ob); try (split; reflexivity); apply fold_close). clearbody s. destruct S as [S1 S2].
  split; [exact S2|]. intros t a Ht D. assert (Ne : t <> o) by congruence. exists a. cbn [heap set_heap]. unfold isdead in *. cbn [heap set_heap cw]. apply Nat.eqb_neq in Ne. rewrite Ne, S1, S2.
  split; [exact Ht|]. split; [exact D | apply tsame_refl].
Qed.
Lemma SW_sweeplist : forall l n st, SW st (fst (fst (sweeplist n st l))).
Proof.
  induction l as [|o l IH]; intros n st; destruct n; cbn [sweeplist]; try apply SW_refl. destruct (isdead st o) eqn:D; [eapply SW_trans; [apply SW_free, D | apply IH]|].
  assert (K := IH n (makewhite st o)). destruct (sweeplist n (makewhite st o) l) as [[s k] r]. exact (SW_trans _ _ _ (SW_makewhite st o) K).
Qed.
Lemma SW_sweeptolive : forall l st, SW st (fst (fst (sweeptolive st l))).
Proof. induction l as [|o l IH]; intros st; cbn [sweeptolive]; [apply SW_refl|]. destruct (isdead st o) eqn:D; [eapply SW_trans; [apply SW_free, D | apply IH]|]. apply SW_makewhite. Qed.
Lemma SW_entersweep : forall st, SW st (entersweep st).
Proof.
  intros st. unfold entersweep. set (s0 := set_gcs st GCSswpallgc). assert (K := SW_sweeptolive (allgc s0) s0). destruct (sweeptolive s0 (allgc s0)) as [[s k] r]. cbn [fst] in K.
  apply (SW_trans st s0); [apply SW_same; reflexivity|]. apply (SW_trans _ _ _ K), SW_same; reflexivity.
Qed.
Lemma SW_set_swlist : forall st l, SW st (set_swlist st l).
Proof. intros. unfold set_swlist. destruct (gcs st); apply SW_same; reflexivity. Qed.
Lemma SW_sweepstep : forall st n p, SW st (sweepstep st n p).
Proof.
  intros st n p. unfold sweepstep. destruct (sweepgc st) as [q|]; [|apply SW_same; reflexivity]. destruct (split_ptr q (swlist st)) as [pre suf].
  assert (K := SW_sweeplist suf GCSWEEPMAX st). destruct (sweeplist GCSWEEPMAX st suf) as [[s k] r]. cbn [fst] in K.
  apply (SW_trans _ _ _ K). apply (SW_trans _ _ _ (SW_set_swlist s (pre ++ k ++ r))), SW_same; reflexivity.
Qed.
Definition curthr (st : gst) : Prop := forall a, heap st (curth st) = Some a -> o_kind a = KThread.
Lemma curthr_modify : forall st o f, (forall b, o_kind (f b) = o_kind b) -> curthr st -> curthr (modify st o f).
Proof.
  intros st o f F C a. replace (curth (modify st o f)) with (curth st) by (rewrite modify_rest; reflexivity). rewrite heap_modify.
  destruct (Nat.eqb_spec (curth st) o) as [E|]; [|apply C]. destruct (heap st o) as [b|] eqn:H; [|discriminate]. cbn. intros X. injection X as <-. rewrite F. apply C. rewrite E. exact H.
Qed.
Lemma SW_push : forall st v, curthr st -> SW st (push st v).
Proof. intros st v C. apply SW_modify. intros a Ha. split; [|left; reflexivity]. split; [reflexivity|]. split; [reflexivity|]. intros N. exfalso. apply N, C, Ha. Qed.
Lemma SW_gctm : forall st, curthr st -> SW st (gctm st).
Proof.
  intros st Th. unfold gctm. destruct (tobefnz st) as [|o l]; [apply SW_refl|]. cbv zeta.
  set (s0 := set_objs st (o :: allgc st) (finobj st) l). assert (K0 : SW st s0) by (apply SW_same; reflexivity). assert (C0 : curthr s0) by exact Th. clearbody s0.
  set (s1 := modify s0 o (fun b => with_fin b false)). assert (K1 : SW s0 s1) by (apply SW_modify; intros a _; split; [split; [reflexivity|]; split; [reflexivity|]; auto | left; reflexivity]).
  assert (C1 : curthr s1) by (apply curthr_modify; [reflexivity | exact C0]). clearbody s1.
  set (s2 := if issweepphase s1 then makewhite s1 o else s1). assert (K2 : SW s1 s2) by (unfold s2; destruct (issweepphase s1); [apply SW_makewhite | apply SW_refl]).
  assert (C2 : curthr s2) by (unfold s2; destruct (issweepphase s1); [apply curthr_modify; [reflexivity | exact C1] | exact C1]). clearbody s2.
  assert (K := SW_trans _ _ _ K0 (SW_trans _ _ _ K1 K2)).
  destruct (heap s2 o) as [ob|]; [|exact K]. destruct (gcfield s2 ob); [|exact K]. exact (SW_trans _ _ _ K (SW_push _ _ C2)).
Qed.

(** ** Where the collector stands *)
Lemma gcs_modify : forall st o f, gcs (modify st o f) = gcs st. Proof. intros. rewrite modify_rest. reflexivity. Qed.
Lemma gcs_free : forall st o, gcs (freeobj st o) = gcs st.
Proof.
  intros st o. unfold freeobj. destruct (heap st o) as [ob|]; [|reflexivity]. cbn [gcs set_heap]. destruct (o_kind ob); try reflexivity.
  generalize (o_open ob) as l. intros l. revert st. induction l as [|u l IH]; intros st; [reflexivity|]. cbn [fold_left]. rewrite IH. reflexivity.
Qed.
Lemma gcs_sweeplist : forall l n st, gcs (fst (fst (sweeplist n st l))) = gcs st.
Proof.
  induction l as [|o l IH]; intros n st; destruct n; cbn [sweeplist]; try reflexivity. destruct (isdead st o); [rewrite IH; apply gcs_free|].
  assert (K := IH n (makewhite st o)). destruct (sweeplist n (makewhite st o) l) as [[s k] r]. cbn [fst] in *. rewrite K. apply gcs_modify.
Qed.
Lemma gcs_sweeptolive : forall l st, gcs (fst (fst (sweeptolive st l))) = gcs st.
Proof. induction l as [|o l IH]; intros st; cbn [sweeptolive]; [reflexivity|]. destruct (isdead st o); [rewrite IH; apply gcs_free | apply gcs_modify]. Qed.
Lemma gcs_entersweep : forall st, gcs (entersweep st) = GCSswpallgc.
Proof.
  intros st. unfold entersweep. set (s0 := set_gcs st GCSswpallgc). assert (K := gcs_sweeptolive (allgc s0) s0). destruct (sweeptolive s0 (allgc s0)) as [[s k] r]. exact K.
Qed.
Lemma gcs_sweepstep : forall st n p, gcs (sweepstep st n p) = match sweepgc st with Some _ => gcs st | None => n end.
Proof.
  intros st n p. unfold sweepstep. destruct (sweepgc st) as [q|]; [|reflexivity]. destruct (split_ptr q (swlist st)) as [pre suf].
  assert (K := gcs_sweeplist suf GCSWEEPMAX st). destruct (sweeplist GCSWEEPMAX st suf) as [[s k] r]. cbn [fst] in K. cbn [gcs set_sweepgc]. rewrite <- K. unfold set_swlist. destruct (gcs s) eqn:E; cbn [gcs set_objs]; exact E.
Qed.
Lemma gcs_gctm : forall st, gcs (gctm st) = gcs st.
Proof.
  intros st. unfold gctm. destruct (tobefnz st) as [|o l]; [reflexivity|]. cbv zeta. set (s1 := modify _ o _). assert (E : gcs s1 = gcs st) by (unfold s1; rewrite gcs_modify; reflexivity). clearbody s1.
  set (s2 := if issweepphase s1 then _ else _). assert (E2 : gcs s2 = gcs st) by (unfold s2; destruct (issweepphase s1); [rewrite <- E; apply gcs_modify | exact E]). clearbody s2.
  destruct (heap s2 o) as [ob|]; [|exact E2]. destruct (gcfield s2 ob); [rewrite <- E2; apply gcs_modify | exact E2].
Qed.

(** ** One cycle *)
Lemma fixstr_shr' : forall st st', fixstr st -> shr st st' -> fixstr st'.
Proof. intros st st' F S o I. rewrite (shr_kind _ _ _ S). apply F. destruct (shr_fields _ _ S) as [X _]. rewrite <- X. exact I. Qed.
Section cyc.
Variable st0 : gst.
Variable t : id.
Variable ob0 : obj.
Hypothesis Ht0 : heap st0 t = Some ob0.
Hypothesis Kt0 : o_kind ob0 = KTable.
Hypothesis Held : surely_held st0 t.
Definition same_firm (st : gst) : Prop :=
  mainth st = mainth st0 /\ curth st = curth st0 /\ registry st = registry st0 /\ mts st = mts st0 /\ tobefnz st = tobefnz st0.
Definition PM (st : gst) : Prop := (gcs st = GCSpropagate \/ gcs st = GCSenteratomic) /\ Kp st0 st /\ LM st /\ same_firm st.
Definition lasts (ob : obj) : Prop :=
  (forall k v, In (k, v) (o_hash ob0) -> v <> VNil -> lasting st0 (key_id k) -> lasting st0 (val_id v) -> In (k, v) (o_hash ob)) /\
  (forall i v, nth_error (o_vals ob0) i = Some v -> lasting st0 (val_id v) -> nth_error (o_vals ob) i = Some v).
Definition PS (st : gst) : Prop := (gcs st <> GCSpropagate /\ gcs st <> GCSenteratomic) /\
  exists ob, heap st t = Some ob /\ isdead st t = false /\ o_kind ob = KTable /\ lasts ob.
Definition PC (st : gst) : Prop := PM st \/ PS st.
Lemma PC_lasts : forall st, PC st -> exists ob, heap st t = Some ob /\ lasts ob.
Proof.
  intros st [[_ [K _]]|[_ [ob [H [_ [_ L]]]]]].
  - destruct (kp_some _ _ K t ob0 Ht0) as [b [Hb O]]. exists b. split; [exact Hb|]. split.
    + intros k v I N _ _. exact (ok_hash _ _ O k v I N).
    + intros i v I _. rewrite (ok_vals _ _ O ltac:(congruence)). exact I.
  - exists ob. split; assumption.
Qed.
Lemma PC_start : Inv st0 -> gcs st0 = GCSpause -> PC (step st0 (GStep false)).
Proof.
  intros [C [L P]] G. left. cbn [step]. unfold singlestep. rewrite G. unfold Phase in P. rewrite G in P.
  assert (U : unswept st0 = []) by (unfold unswept; rewrite G; reflexivity).
  assert (A := white_allcw st0 C (Swp_done st0 P U)). assert (T := typ_core st0 C A). destruct (KLM_restart st0 T) as [K Lm].
  split; [left; reflexivity|]. split; [apply (Kp_trans _ _ _ K), Kp_same; reflexivity|]. split; [destruct Lm as [L1 L2 L3]; constructor; assumption|].
  unfold restartcollection. set (s0 := set_lists st0 [] [] [] [] []). assert (T0 : typ s0) by (destruct T as [T1 T2 T3]; constructor; assumption).
  destruct (mark_ok s0 (mainth s0) T0) as [M1 _]. set (s1 := mark s0 (mainth s0)) in *. assert (T1 := typ_mrel _ _ T0 M1).
  destruct (mark_val_ok s1 (registry s1) T1) as [M2 _]. set (s2 := mark_val s1 (registry s1)) in *. assert (T2 := typ_mrel _ _ T1 M2).
  destruct (mark_opts_ok (mts s2) s2 T2) as [M3 _]. fold (markmt s2) in M3. set (s3 := markmt s2) in *. assert (T3 := typ_mrel _ _ T2 M3).
  destruct (mark_list_ok (tobefnz s3) s3 T3) as [M4 _]. fold (markbeingfnz s3) in M4. set (s4 := markbeingfnz s3) in *.
  assert (M := mrel_trans _ _ _ M1 (mrel_trans _ _ _ M2 (mrel_trans _ _ _ M3 M4))). clearbody s4. mfields M. cbn in *. unfold same_firm. cbn. repeat split; assumption.
Qed.
Lemma PS_aux2 : forall am af, Kp st0 am -> Rk am af -> (forall x, surely_held st0 x -> iswhite am x = false) -> PS (entersweep (flip af)).
Proof.
  intros am af K0 R Nw.
  destruct (kp_some _ _ K0 t ob0 Ht0) as [b [Hb O]]. assert (Kb : o_kind b = KTable) by (rewrite (os_kind _ _ (ok_sub _ _ O)); exact Kt0).
  destruct (rk_keep _ _ R t b Hb ltac:(congruence)) as [c [Hc [Kc [Ec Vc]]]].
  assert (Wc : iswhite af t = false) by (apply (rk_nw _ _ R), Nw, Held).
  assert (Dc : isdead (flip af) t = false) by (unfold isdead; cbn; unfold iswhite in Wc; rewrite Hc in Wc |- *; destruct (o_col c); [discriminate | reflexivity | reflexivity]).
  assert (SE := SW_entersweep (flip af)). assert (GE := gcs_entersweep (flip af)). assert (Hc2 : heap (flip af) t = Some c) by exact Hc.
  set (es := entersweep (flip af)) in *. clearbody es. set (fa := flip af) in *. clearbody fa.
  split; [split; congruence|].
  destruct (proj2 SE t c Hc2 Dc) as [d [Hd [Dd [Kd [Ed Vd]]]]]. exists d. split; [exact Hd|]. split; [exact Dd|]. split; [congruence|].
  assert (Sf : forall o, lasting st0 o -> safe am o) by (intros [x|] Hx; [destruct Hx as [Hx|Hx]; [left; rewrite (Kp_kind _ _ _ K0); exact Hx | right; exact (Nw x Hx)] | exact Logic.I]).
  split.
  - intros k v I N Sk Sv. rewrite Ed. apply Ec; [exact (ok_hash _ _ O k v I N) | exact N | apply Sf; destruct k; exact Sk | apply Sf; destruct v; exact Sv].
  - intros i v I Sv. rewrite Vd by congruence. apply Vc; [rewrite (ok_vals _ _ O ltac:(congruence)); exact I | apply Sf; destruct v; exact Sv].
Qed.
Lemma PS_aux : forall st am, Core st -> MarkX None st -> PM st -> marked am -> LM am -> shr (set_gcs st GCSatomic) am -> Kp st am ->
  PS (entersweep (flip (atomic_fin am))).
Proof.
  intros st am C M [_ [K [Lm [F1 [F2 [F3 [F4 F5]]]]]]] Mk La S Ka.
  destruct (shr_fields _ _ S) as [X0 [X1 [X2 [X3 [X4 [_ [_ [X5 _]]]]]]]]. cbn in X0, X1, X2, X3, X4, X5.
  assert (K0 := Kp_trans _ _ _ K Ka).
  assert (Nw : forall x, surely_held st0 x -> iswhite am x = false).
  { apply (strong_marked am Mk La (fixstr_shr' (set_gcs st GCSatomic) am (fixstr_core _ C) S) (uvwf_shr (set_gcs st GCSatomic) am (q_uvwf _ C) S) st0 K0).
    intros o [R|R|R|R|R].
    - apply (Kp_nw _ _ _ Ka). rewrite R, <- F1. apply (mk_main _ _ M).
    - rewrite R, <- F2, <- X2. apply (k_cur _ Mk).
    - apply (k_reg _ Mk). congruence.
    - apply (k_mts _ Mk). congruence.
    - apply (Kp_nw _ _ _ Ka), (mk_fnz _ _ M). congruence. }
  destruct (RL_atomic_fin am (c_typ _ _ _ _ (k_ci _ Mk)) La) as [_ [_ R]].
  exact (PS_aux2 am (atomic_fin am) K0 R Nw).
Qed.
Lemma PS_atomic : forall st, Core st -> MarkX None st -> PM st -> PS (entersweep (atomic st)).
Proof.
  intros st C M P. destruct (atomic_mark_ok st (mk_ci _ _ M) (q_uvwf _ C) (fixstr_core _ C)) as [Mk S].
  assert (KL := KLM_atomic_mark st (c_typ _ _ _ _ (mk_ci _ _ M)) (proj1 (proj2 (proj2 P)))). rewrite atomic_flip.
  exact (PS_aux st (atomic_mark st) C M P Mk (proj2 KL) S (proj1 KL)).
Qed.
Lemma PC_step : forall st, Inv st -> gcs st <> GCSpause -> PC st -> PC (step st (GStep false)).
Proof.
  intros st [C [L P]] Np [Pm|Ps].
  - pose proof Pm as [G [K [Lm Fm]]]. cbn [step]. unfold singlestep. destruct G as [G|G]; rewrite G; unfold Phase in P; rewrite G in P.
    + left. destruct (gray st) as [|g gl] eqn:Eg.
      * split; [right; reflexivity|]. split; [apply (Kp_trans _ _ _ K), Kp_same; reflexivity|]. split; [destruct Lm as [L1 L2 L3]; constructor; assumption | exact Fm].
      * destruct (propagate_ok st C L P G ltac:(congruence)) as [_ [_ [_ G']]]. assert (T := c_typ _ _ _ _ (mk_ci _ _ P)).
        destruct (KL_propagatemark st T) as [K2 L2]. destruct (propagatemark_ok MA [] st (mk_ci _ _ P) G ltac:(congruence)) as [_ [S _]].
        destruct (shr_fields _ _ S) as [_ [X1 [X2 [X3 [X4 [_ [_ [X5 _]]]]]]]]. destruct Fm as [F1 [F2 [F3 [F4 F5]]]].
        split; [left; exact G'|]. split; [exact (Kp_trans _ _ _ K K2)|]. split; [exact (L2 Lm)|]. unfold same_firm. repeat split; congruence.
    + right. apply PS_atomic; assumption.
  - right. destruct Ps as [[G1 G2] [ob [H [D [Ko Ls]]]]]. assert (SWs : SW st (step st (GStep false)) /\ gcs (step st (GStep false)) <> GCSpropagate /\ gcs (step st (GStep false)) <> GCSenteratomic).
    { cbn [step]. unfold singlestep. destruct (gcs st) eqn:G; try congruence.
      - unfold Phase in P. rewrite G in P. destruct P.
      - split; [apply SW_sweepstep|]. rewrite gcs_sweepstep, G. destruct (sweepgc st); split; discriminate.
      - split; [apply SW_sweepstep|]. rewrite gcs_sweepstep, G. destruct (sweepgc st); split; discriminate.
      - split; [apply SW_sweepstep|]. rewrite gcs_sweepstep, G. destruct (sweepgc st); split; discriminate.
      - split; [apply SW_same; reflexivity | split; discriminate].
      - destruct (tobefnz st) as [|z zl] eqn:Z; [split; [apply SW_same; reflexivity | split; discriminate]|].
        split; [apply SW_gctm; intros a Ha; assert (X := q_cur _ C); unfold kind_of in X; rewrite Ha in X; congruence|]. rewrite gcs_gctm, G. split; discriminate. }
    destruct SWs as [[_ S] G']. destruct (S t ob H D) as [b [Hb [Db [Kb [Eb Vb]]]]]. split; [exact G'|]. exists b. split; [exact Hb|]. split; [exact Db|]. split; [congruence|].
    destruct Ls as [Ls1 Ls2]. unfold lasts. rewrite Eb, Vb by congruence. split; assumption.
Qed.
Lemma PC_steps : forall n st, Inv st -> PC st -> (forall m, m < n -> gcs (gsteps m st) <> GCSpause) -> PC (gsteps n st).
Proof.
  induction n as [|n IH]; intros st Iv P N; [exact P|]. cbn [gsteps]. apply IH.
  - apply step_inv; [exact Iv | exact Logic.I | exact Logic.I].
  - apply PC_step; [exact Iv | exact (N 0 ltac:(lia)) | exact P].
  - intros m Hm. exact (N (S m) ltac:(lia)).
Qed.
End cyc.
Lemma entries_kept : forall st n t ob, exec covered init_state st -> gcs st = GCSpause ->
  (forall m, m < n -> gcs (gsteps (S m) st) <> GCSpause) ->
  heap st t = Some ob -> o_kind ob = KTable -> surely_held st t ->
  exists ob', heap (gsteps (S n) st) t = Some ob' /\
    (forall k v, In (k, v) (o_hash ob) -> v <> VNil -> lasting st (key_id k) -> lasting st (val_id v) -> In (k, v) (o_hash ob')) /\
    (forall i v, nth_error (o_vals ob) i = Some v -> lasting st (val_id v) -> nth_error (o_vals ob') i = Some v).
Proof.
  intros st n t ob R G N H Kt Hd. assert (Iv := run_inv st R).
  assert (P := PC_steps st t ob H Kt Hd n (step st (GStep false)) ltac:(apply step_inv; [exact Iv | exact Logic.I | exact Logic.I]) (PC_start st t ob Iv G) N).
  exact (PC_lasts st t ob H Kt _ P).
Qed.
(** What is held for certain is not freed. *)
Lemma surely_kept_table : forall st n t ob, exec covered init_state st -> gcs st = GCSpause ->
  (forall m, m < n -> gcs (gsteps (S m) st) <> GCSpause) ->
  heap st t = Some ob -> o_kind ob = KTable -> surely_held st t -> heap (gsteps (S n) st) t <> None.
Proof. intros st n t ob R G N H Kt Hd. destruct (entries_kept st n t ob R G N H Kt Hd) as [b [Hb _]]. congruence. Qed.
