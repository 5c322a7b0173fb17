(** Upvalues and allocation keep the invariant. *)
From Coq Require Import ZArith List Bool Arith Lia Permutation.
From Verif Require Import Base Gc_model Gc_spec Gc_facts Gc_tri Gc_trav Gc_prop Gc_atomic Gc_fin Gc_core Gc_mark Gc_sweep Gc_inv Gc_mut.
Import ListNotations.
Local Open Scope nat_scope.

(** ** New upvalues *)

Definition fu_pre (st : gst) (th : id) (i : nat) : gst :=
  let u := nextuv st in
  let s := set_uvs st (fun x => if Nat.eqb x u then Some (UOpen th i true) else uvs st x) (S u) in
  if existsb (Nat.eqb th) (twups st) then s else set_twups s (th :: twups st).

Lemma findupval_pre : forall st th i,
  findupval st th i = modify (fu_pre st th i) th (fun b => with_open b (nextuv st :: o_open b)).
Proof.
  intros st th i. unfold findupval, fu_pre, modify. cbn. destruct (heap st th) as [ob|] eqn:Ho; cbn.
  - destruct (existsb (Nat.eqb th) (twups st)); cbn; rewrite Ho; reflexivity.
  - destruct (existsb (Nat.eqb th) (twups st)); cbn; rewrite Ho; reflexivity.
Qed.

Lemma fu_pre_fields : forall st th i,
  heap (fu_pre st th i) = heap st /\ nextid (fu_pre st th i) = nextid st /\ cw (fu_pre st th i) = cw st /\ fixedgc (fu_pre st th i) = fixedgc st /\
  gray (fu_pre st th i) = gray st /\ grayagain (fu_pre st th i) = grayagain st /\ weak (fu_pre st th i) = weak st /\
  allweak (fu_pre st th i) = allweak st /\ ephemeron (fu_pre st th i) = ephemeron st /\ mainth (fu_pre st th i) = mainth st /\
  tobefnz (fu_pre st th i) = tobefnz st /\ gcs (fu_pre st th i) = gcs st /\ sweepgc (fu_pre st th i) = sweepgc st /\
  allgc (fu_pre st th i) = allgc st /\ finobj (fu_pre st th i) = finobj st /\
  incl (twups st) (twups (fu_pre st th i)) /\ In th (twups (fu_pre st th i)) /\
  (forall u, uvs (fu_pre st th i) u = if Nat.eqb u (nextuv st) then Some (UOpen th i true) else uvs st u).
Proof.
  intros st th i. unfold fu_pre. destruct (existsb (Nat.eqb th) (twups st)) eqn:E; cbn; repeat (split; [reflexivity|]).
  - split; [apply incl_refl|]. split; [|reflexivity]. apply existsb_exists in E. destruct E as [x [I Q]]. apply Nat.eqb_eq in Q. subst x. exact I.
  - split; [apply incl_tl, incl_refl|]. split; [left; reflexivity | reflexivity].
Qed.

(** Changing a thread's open list: what marking knows is not affected. *)
Lemma MarkX_thread : forall st th f, MarkX None st -> fixstr st -> kind_of st th = Some KThread ->
  (forall ob, heap st th = Some ob -> o_kind (f ob) = o_kind ob /\ o_col (f ob) = o_col ob /\ kwf (f ob) /\
     o_meta (f ob) = o_meta ob /\ (o_open (f ob) <> [] -> o_open ob <> [] \/ In th (twups st))) ->
  MarkX None (modify st th f).
Proof.
  intros st th f M Fx K Hf. destruct (alive_kind st th _ K) as [ob [Ho Ko]]. destruct (Hf ob Ho) as [Q1 [Q2 [Q3 [Q4 Q5]]]].
  assert (Mt : o_meta ob = None).
  { pose proof (t_kwf _ (c_typ _ _ _ _ (mk_ci _ _ M)) th ob Ho) as W. unfold kwf in W. rewrite Ko in W. apply W. }
  apply (Mark_undo th).
  - apply MarkX_modify; [apply MarkX_ex, M|]. intros b Hb. rewrite Ho in Hb. inversion Hb; subst b. repeat split; auto. intros m Hm. congruence.
  - intros b Hb Cb. rewrite (heap_modify_eq st th f ob Ho) in Hb. inversion Hb; subst b. exfalso.
    destruct (Mark_black st th ob M Fx Ho) as [Z _]; [congruence|]. apply (Z Ko). reflexivity.
  - intros b Hb _ m Hm. rewrite (heap_modify_eq st th f ob Ho) in Hb. inversion Hb; subst b. congruence.
Qed.

Lemma Core_fixstr : forall st, Core st -> fixstr st.
Proof. intros st C o I. apply (q_fix _ C o I). Qed.

Lemma Phase_cases : forall st, Phase st -> (keepinvariant st = true /\ MarkX None st) \/ (keepinvariant st = false /\ Swp st).
Proof. intros st P. apply (PhaseX_cases None st P). Qed.

Lemma Phase_mark : forall st, gcs st <> GCSatomic -> keepinvariant st = true -> MarkX None st -> Phase st.
Proof. intros st G K M. apply (PhaseX_mark None st G K M). Qed.
Lemma Phase_sw : forall st, keepinvariant st = false -> Swp st -> Phase st.
Proof. intros st K M. apply (PhaseX_swp None st K M). Qed.

Lemma findupv_inv : forall st th i, Inv st -> legal st (MFindUpv th i) -> Inv (step st (MFindUpv th i)).
Proof.
  intros st th i Iv [R [[k [K [<- | []]]] _]]. pose proof Iv as [C [L P]]. cbn [step].
  destruct (fu_pre_fields st th i) as [H1 [H2 [H3 [H4 [H5 [H6 [H7 [H8 [H9 [H10 [H11 [H12 [H13 [H14 [H15 [H16 [H17 H18]]]]]]]]]]]]]]]]].
  set (s := fu_pre st th i) in *. set (f := fun b => with_open b (nextuv st :: o_open b)).
  destruct (modify_all s th f) as [F1 [F2 [F3 [F4 [F5 [F6 [F7 [F8 [F9 [F10 _]]]]]]]]]].
  split; [apply (Core_findupval st th i C (alive_reach st C th R) K)|]. rewrite (findupval_pre st th i). fold s. fold f. split.
  - apply (Lists_shape s); [|apply shape_modify; reflexivity]. apply (Lists_shape st _ L), shape_same; assumption.
  - destruct (Phase_cases st P) as [[Kp M] | [Kp S]].
    + apply Phase_mark; [rewrite F5, H12; apply (PhaseX_na None st P) | rewrite (keep_gcs s _ F5), (keep_gcs st _ H12); exact Kp|].
      assert (Ms : MarkX None s).
      { apply (MarkX_uvs None st s M); try assumption; [rewrite H11; apply incl_refl|]. intros u. unfold openok. rewrite H18. destruct (Nat.eqb u (nextuv st)); [reflexivity|].
        destruct (uvs st u) as [[]|]; auto. unfold valnw, valiswhite. destruct v; auto. unfold iswhite. rewrite H1. auto. }
      apply (MarkX_thread s th f Ms).
      * intros o J. unfold kind_of. rewrite H1. rewrite H4 in J. apply (Core_fixstr st C o J).
      * unfold kind_of. rewrite H1. exact K.
      * intros ob Ho. rewrite H1 in Ho. unfold f. cbn. repeat split; auto. pose proof (q_kwf _ C th ob Ho) as W. unfold kwf in *. cbn.
        unfold kind_of in K. rewrite Ho in K. inversion K as [K']. rewrite K' in *. exact W.
    + apply Phase_sw; [rewrite (keep_gcs s _ F5), (keep_gcs st _ H12); exact Kp|]. apply Swp_modify; [|reflexivity].
      apply (Swp_keep st s S); try assumption. intros o b Hb. rewrite H1 in Hb. right. eauto.
Qed.

(** ** Marking does not look at upvalues *)

Lemma mark_meta_uvs : forall st f k m, mark_meta (set_uvs st f k) m = set_uvs (mark_meta st m) f k.
Proof.
  intros st f k [m|]; [|reflexivity]. cbn [mark_meta]. change (iswhite (set_uvs st f k) m) with (iswhite st m).
  destruct (iswhite st m); [|reflexivity]. unfold link_gray, setcol, modify. cbn. destruct (heap st m); reflexivity.
Qed.
Lemma setcol_uvs : forall st f k o c, setcol (set_uvs st f k) o c = set_uvs (setcol st o c) f k.
Proof. intros. unfold setcol, modify. cbn. destruct (heap st o); reflexivity. Qed.

Lemma mark_obj_uvs : forall n st f k o, mark_obj n (set_uvs st f k) o = set_uvs (mark_obj n st o) f k.
Proof.
  induction n as [|n IH]; intros st f k o; cbn [mark_obj]; [reflexivity|]. change (heap (set_uvs st f k)) with (heap st).
  destruct (heap st o) as [ob|] eqn:Ho; [|reflexivity].
  assert (Lg : link_gray (set_uvs st f k) o = set_uvs (link_gray st o) f k) by (unfold link_gray; cbn; apply (setcol_uvs (set_gray st (o :: gray st)))).
  assert (Re : forall u, (let st1 := set2black (mark_meta (set_uvs st f k) (o_meta ob)) o in if iswhite st1 u then mark_obj n st1 u else st1) =
     set_uvs (let st1 := set2black (mark_meta st (o_meta ob)) o in if iswhite st1 u then mark_obj n st1 u else st1) f k).
  { intros u. cbv zeta. rewrite mark_meta_uvs. unfold set2black. rewrite setcol_uvs.
    change (iswhite (set_uvs (setcol (mark_meta st (o_meta ob)) o Black) f k) u) with (iswhite (setcol (mark_meta st (o_meta ob)) o Black) u).
    destruct (iswhite (setcol (mark_meta st (o_meta ob)) o Black) u); [apply IH | reflexivity]. }
  assert (Rf : set2black (mark_meta (set_uvs st f k) (o_meta ob)) o = set_uvs (set2black (mark_meta st (o_meta ob)) o) f k).
  { rewrite mark_meta_uvs. unfold set2black. apply setcol_uvs. }
  destruct (o_kind ob); try exact Lg; [apply setcol_uvs | |]; cbv zeta; destruct (o_vals ob) as [|[|p|u] l]; try exact Rf; apply Re.
Qed.

Lemma mark_val_uvs : forall st f k v, mark_val (set_uvs st f k) v = set_uvs (mark_val st v) f k.
Proof.
  intros st f k [|p|o]; [reflexivity | reflexivity|]. cbn [mark_val]. unfold mark. change (iswhite (set_uvs st f k) o) with (iswhite st o).
  destruct (iswhite st o); [apply mark_obj_uvs | reflexivity].
Qed.
Lemma mark_vals_uvs : forall l st f k, mark_vals (set_uvs st f k) l = set_uvs (mark_vals st l) f k.
Proof. induction l as [|v l IH]; intros st f k; [reflexivity|]. cbn [mark_vals fold_left]. rewrite mark_val_uvs. apply IH. Qed.

Lemma mark_vals_mrel : forall l st, typ st -> mrel st (mark_vals st l) /\ (forall o, In (VObj o) l -> iswhite (mark_vals st l) o = false).
Proof.
  induction l as [|v l IH]; intros st T; [split; [apply mrel_refl | intros o []]|]. cbn [mark_vals fold_left]. destruct (mark_val_ok st v T) as [M Nw].
  destruct (IH (mark_val st v) (typ_mrel _ _ T M)) as [M2 N2]. split; [apply (mrel_trans _ _ _ M M2)|].
  intros o [-> | I]; [apply (mrel_nw _ _ _ M2), Nw; reflexivity | apply N2, I].
Qed.

(** ** Upvalues replaced *)

Lemma set_uvs_keep : forall st f k, keepinvariant (set_uvs st f k) = keepinvariant st.
Proof. reflexivity. Qed.

Lemma Inv_uvs : forall st f, Inv st ->
  (forall u, f u = uvs st u \/ (exists th i t t', uvs st u = Some (UOpen th i t) /\ f u = Some (UOpen th i t')) \/
     (exists v v', uvs st u = Some (UClosed v) /\ f u = Some (UClosed v') /\ forall b, v' = VObj b -> alive st b)) ->
  (keepinvariant st = true -> forall u, openok MA st u -> openok MA (set_uvs st f (nextuv st)) u) ->
  Inv (set_uvs st f (nextuv st)).
Proof.
  intros st f [C [L P]] Hf Ho. split; [apply (Core_uvs st _ C); try reflexivity; exact Hf|].
  split; [apply (Lists_shape st _ L), shape_same; reflexivity|].
  destruct (Phase_cases st P) as [[Kp M] | [Kp S]].
  - apply Phase_mark; [apply (PhaseX_na None st P) | exact Kp|]. apply (MarkX_uvs None st _ M); try reflexivity; try (apply incl_refl). apply (Ho Kp).
  - apply Phase_sw; [exact Kp|]. apply (Swp_keep st _ S); try reflexivity. intros o b Hb. right. exists b. auto.
Qed.

Lemma Inv_mrel : forall st st', Inv st -> keepinvariant st = true -> mrel st st' -> Inv st'.
Proof. intros st st' I K M. apply (InvX_mrel None st st' I K M). Qed.

Lemma Inv_typ : forall st, Inv st -> keepinvariant st = true -> typ st.
Proof. intros st [C [L P]] K. destruct (Phase_cases st P) as [[_ M] | [Q _]]; [apply (Core_typ None st C M) | congruence]. Qed.

Lemma alive_mrel : forall st st' o, allcw st -> mrel st st' -> alive st o -> alive st' o.
Proof.
  intros st st' o A M [H _]. split; [|apply allcw_dead, (allcw_mrel _ _ A M)]. destruct (heap st o) as [ob|] eqn:E; [|congruence].
  destruct (r_some _ _ M o ob E) as [b [Eb _]]. congruence.
Qed.

Lemma Inv_allcw : forall st, Inv st -> keepinvariant st = true -> allcw st.
Proof. intros st [C [L P]] K. destruct (Phase_cases st P) as [[_ M] | [Q _]]; [apply (mk_cw _ _ M) | congruence]. Qed.

Lemma upvalbarrier_val : forall st u v, uvs st u = Some (UClosed v) -> keepinvariant st = true -> upvalbarrier st u = mark_val st v.
Proof. intros st u v E K. unfold upvalbarrier. rewrite E, K. destruct v; reflexivity. Qed.
Lemma upvalbarrier_no : forall st u, keepinvariant st = false -> upvalbarrier st u = st.
Proof. intros st u K. unfold upvalbarrier. rewrite K. destruct (uvs st u) as [[|[]]|]; reflexivity. Qed.

Lemma setupv_inv : forall st u v, Inv st -> legal st (MSetUpv u v) -> Inv (step st (MSetUpv u v)).
Proof.
  intros st u v Iv [Ru Rv]. pose proof Iv as [C [L P]]. cbn [step]. unfold setupval. destruct (uvs st u) as [[th i t|w]|] eqn:E; [| |exact Iv].
  - apply (Inv_stack st th _ Iv); [|reflexivity]. intros ob Ho. destruct (q_uvwf _ C u th i t E) as [ob' [Ho' Iu]]. rewrite Ho in Ho'. inversion Ho'; subst ob'.
    assert (Kt : o_kind ob = KThread).
    { apply open_kthread; [apply (q_kwf _ C th ob Ho)|]. intros Q. rewrite Q in Iu. destruct Iu. }
    split; [|auto]. apply (list_set_okmod st th ob i v C Ho); [congruence | apply (val_alive st v C Rv)].
  - set (f := fun x => if Nat.eqb x u then Some (UClosed v) else uvs st x).
    assert (Hf : forall s, uvs s = uvs st -> (forall b, v = VObj b -> alive s b) -> forall x,
       f x = uvs s x \/ (exists th i t t', uvs s x = Some (UOpen th i t) /\ f x = Some (UOpen th i t')) \/
       (exists v0 v', uvs s x = Some (UClosed v0) /\ f x = Some (UClosed v') /\ forall b, v' = VObj b -> alive s b)).
    { intros s Es Av x. unfold f. rewrite Es. destruct (Nat.eqb_spec x u) as [->|]; [|auto]. right; right. exists w, v. auto. }
    destruct (keepinvariant st) eqn:Kp.
    + rewrite (upvalbarrier_val _ u v); [|cbn; unfold f; rewrite Nat.eqb_refl; reflexivity | exact Kp]. rewrite mark_val_uvs.
      destruct (mark_val_ok st v (Inv_typ st Iv Kp)) as [M Nw]. pose proof (Inv_mrel st _ Iv Kp M) as Im.
      pose proof (mrel_fields _ _ M) as Fl. destruct Fl as [_ [Fu [Fn _]]]. replace (nextuv st) with (nextuv (mark_val st v)) by exact Fn.
      apply (Inv_uvs _ f Im).
      * apply (Hf _ Fu). intros b Eb. apply (alive_mrel st _ b (Inv_allcw st Iv Kp) M), (val_alive st v C Rv b Eb).
      * intros _ x. unfold openok. cbn [uvs set_uvs]. unfold f. rewrite Fu. destruct (Nat.eqb_spec x u) as [->|]; [|destruct (uvs st x) as [[]|]; auto].
        intros _. unfold valnw, valiswhite. destruct v; auto. apply (Nw o eq_refl).
    + rewrite upvalbarrier_no by exact Kp. apply (Inv_uvs st f Iv); [|congruence]. apply (Hf st eq_refl), (val_alive st v C Rv).
Qed.

(** ** Closing upvalues *)

Lemma uv_val_mark : forall st st' u, mrel st st' -> uv_val st' u = uv_val st u.
Proof.
  intros st st' u M. pose proof (mrel_fields _ _ M) as Fl. destruct Fl as [_ [Fu _]]. unfold uv_val. rewrite Fu. destruct (uvs st u) as [[th i t|v]|]; try reflexivity.
  destruct (heap st th) as [ob|] eqn:E.
  - destruct (r_some _ _ M th ob E) as [b [Eb [W _]]]. rewrite Eb, W. reflexivity.
  - rewrite (r_none _ _ M th E). reflexivity.
Qed.
Lemma uv_val_close : forall st u x, uv_val (close_upv st u) x = uv_val st x.
Proof. intros st u x. unfold uv_val at 1, close_upv. cbn. destruct (Nat.eqb_spec x u) as [->|]; reflexivity. Qed.

Lemma close_fold : forall us s, typ s -> keepinvariant s = true ->
  exists f, fold_left (fun s u => upvalbarrier (close_upv s u) u) us s = set_uvs (mark_vals s (map (uv_val s) us)) f (nextuv s) /\
    forall x, f x = uvs (fold_left close_upv us s) x.
Proof.
  induction us as [|u us IH]; intros s T K.
  - exists (uvs s). split; [destruct s; reflexivity | reflexivity].
  - cbn [fold_left map mark_vals]. set (v := uv_val s u). set (g := fun x => if Nat.eqb x u then Some (UClosed v) else uvs s x).
    assert (E1 : upvalbarrier (close_upv s u) u = set_uvs (mark_val s v) g (nextuv s)).
    { rewrite (upvalbarrier_val _ u v); [|cbn; rewrite Nat.eqb_refl; reflexivity | exact K]. unfold close_upv. apply mark_val_uvs. }
    rewrite E1. destruct (mark_val_ok s v T) as [M _]. set (s1 := set_uvs (mark_val s v) g (nextuv s)).
    pose proof (mrel_fields _ _ M) as [_ [Fu [Fn [_ [Fg _]]]]].
    assert (T1 : typ s1) by (destruct (typ_mrel _ _ T M) as [T1 T2 T3]; constructor; assumption).
    destruct (IH s1 T1) as [f [E2 Hf]]; [unfold keepinvariant; cbn; rewrite Fg; exact K|].
    assert (Ev : forall x, uv_val s1 x = uv_val s x).
    { intros x. transitivity (uv_val (set_uvs s g (nextuv s)) x); [|apply (uv_val_close s u x)].
      pose proof (mark_val_ok (set_uvs s g (nextuv s)) v) as Mq. rewrite mark_val_uvs in Mq. destruct Mq as [Mq _]; [destruct T; constructor; assumption|].
      apply (uv_val_mark _ _ x Mq). }
    exists f. split.
    + rewrite E2. rewrite (map_ext _ _ Ev). unfold s1. rewrite mark_vals_uvs. reflexivity.
    + intros x. rewrite Hf. destruct (close_upvs_uvs us s1) as [_ [U1 _]]. destruct (close_upvs_uvs us (close_upv s u)) as [_ [U2 _]].
      rewrite U1, U2, Ev, uv_val_close. reflexivity.
Qed.

Lemma close_no : forall us s, keepinvariant s = false -> fold_left (fun s u => upvalbarrier (close_upv s u) u) us s = fold_left close_upv us s.
Proof. induction us as [|u us IH]; intros s K; [reflexivity|]. cbn [fold_left]. rewrite upvalbarrier_no by exact K. apply IH. exact K. Qed.

Lemma close_nextuv : forall us s, nextuv (fold_left close_upv us s) = nextuv s.
Proof. induction us as [|u us IH]; intros s; [reflexivity|]. cbn [fold_left]. rewrite IH. reflexivity. Qed.

Lemma close_inv : forall st th us, Inv st -> legal st (MClose th us) -> Inv (step st (MClose th us)).
Proof.
  intros st th us Iv [R [[k [K [<- | []]]] Hi]]. pose proof Iv as [C [L P]]. cbn [step]. unfold close_upvs.
  set (f := fun b => with_open b (filter (fun u => negb (existsb (Nat.eqb u) us)) (o_open b))). set (s0 := modify st th f).
  destruct (alive_kind st th _ K) as [tb [Ht Kt]].
  pose proof (Core_close st th us tb C (alive_reach st C th R) Ht (Hi tb Ht)) as Cc. fold f in Cc. fold s0 in Cc. set (c := fold_left close_upv us s0) in *.
  destruct (close_upvs_uvs us s0) as [U1 [U2 U3]]. fold c in U1, U2, U3.
  pose proof (modify_all st th f) as FF. fold s0 in FF. destruct FF as [F1 [F2 [F3 [F4 [F5 [F6 [F7 [F8 [F9 [F10 [F11 [F12 _]]]]]]]]]]]].
  assert (Ec : c = set_uvs s0 (uvs c) (nextuv c)) by (rewrite <- U3 at 1; destruct c; reflexivity).
  assert (L0 : Lists s0) by (apply (Lists_shape st _ L), shape_modify; reflexivity).
  assert (Ls : forall s, shape s0 s -> Lists s) by (intros s Sh; apply (Lists_shape s0 _ L0 Sh)).
  destruct (Phase_cases st P) as [[Kp M] | [Kp S]].
  - assert (K0 : keepinvariant s0 = true) by (rewrite (keep_gcs st _ F5); exact Kp).
    assert (M0 : MarkX None s0).
    { apply (MarkX_thread st th f M (Core_fixstr st C) K). intros ob Ho. rewrite Ht in Ho. inversion Ho; subst ob. unfold f. cbn. repeat split; auto.
      - pose proof (q_kwf _ C th tb Ht) as W. unfold kwf in *. cbn. rewrite Kt in *. exact W.
      - intros Q. left. intros Q1. rewrite Q1 in Q. apply Q. reflexivity. }
    assert (T0 : typ s0) by apply (c_typ _ _ _ _ (mk_ci _ _ M0)).
    destruct (close_fold us s0 T0 K0) as [g [E Hg]]. rewrite E. fold c in Hg. set (vs := map (uv_val s0) us) in *.
    destruct (mark_vals_mrel vs s0 T0) as [Mm Nw]. set (m := mark_vals s0 vs) in *.
    pose proof (mrel_fields _ _ Mm) as Fl. destruct Fl as [_ [Fu [Fn [Fc [Fg _]]]]].
    pose proof (MarkX_mrel None s0 m M0 Mm) as Mk.
    assert (Ac : allcw c).
    { intros o ob w Ho Hc. rewrite U1 in Ho. replace (cw c) with (cw s0) by (rewrite Ec; reflexivity). apply (mk_cw _ _ M0 o ob w Ho Hc). }
    destruct (mark_vals_mrel vs c (typ_core c Cc Ac)) as [Mc _].
    assert (Emc : mark_vals c vs = set_uvs m (uvs c) (nextuv c)) by (rewrite Ec at 1; apply mark_vals_uvs).
    rewrite Emc in Mc. destruct (Core_mrel c _ Cc Ac Mc) as [C1 _].
    assert (Nc : nextuv c = nextuv s0) by (apply close_nextuv).
    split; [|split].
    + apply (Core_uvs _ (set_uvs m g (nextuv s0)) C1); try reflexivity; [symmetry; exact Nc|]. intros u. left. cbn. apply Hg.
    + apply Ls. apply (shape_trans s0 m); [apply shape_shr, shr_mrel, Mm | apply shape_same; reflexivity].
    + apply Phase_mark; [cbn; rewrite Fg, F5; apply (PhaseX_na None st P) | unfold keepinvariant; cbn; rewrite Fg; exact K0|].
      apply (MarkX_uvs None m _ Mk); try reflexivity; try (apply incl_refl). intros u. unfold openok. cbn [uvs set_uvs]. rewrite Hg, U2, Fu.
      destruct (existsb (Nat.eqb u) us) eqn:Eu; [|destruct (uvs s0 u) as [[]|]; auto]. intros _. unfold valnw, valiswhite.
      destruct (uv_val s0 u) as [|p|o] eqn:Ev; auto. apply Nw. unfold vs. apply existsb_exists in Eu. destruct Eu as [x [Ix Q]]. apply Nat.eqb_eq in Q. subst x.
      rewrite <- Ev. apply in_map, Ix.
  - rewrite close_no; [|rewrite (keep_gcs st _ F5); exact Kp]. fold c. split; [exact Cc|]. split; [apply Ls, shape_same; rewrite Ec; reflexivity|].
    apply Phase_sw; [rewrite Ec; unfold keepinvariant; cbn; rewrite F5; exact Kp|].
    assert (S0 : Swp s0) by (apply Swp_modify; [exact S | reflexivity]).
    apply (Swp_keep s0 c S0); try (rewrite Ec; reflexivity). intros o b Hb. right. exists b. rewrite U1 in Hb. auto.
Qed.

(** ** Joining upvalues *)

Lemma openok_mrel : forall st st' u, mrel st st' -> openok MA st u -> openok MA st' u.
Proof.
  intros st st' u M. pose proof (mrel_fields _ _ M) as [_ [Fu _]]. unfold openok. rewrite Fu. destruct (uvs st u) as [[]|]; auto.
  unfold valnw, valiswhite. destruct v; auto. apply (mrel_nw _ _ _ M).
Qed.

Lemma join_inv : forall st cl i u, Inv st -> legal st (MJoin cl i u) -> Inv (step st (MJoin cl i u)).
Proof.
  intros st cl i u Iv [R [Kc Ru]]. pose proof Iv as [C [L P]]. cbn [step]. unfold joinupv.
  destruct (has_kind_heap _ _ _ Kc) as [ob [Ho [Ko | []]]]. symmetry in Ko.
  assert (Kd : kind_of st cl = Some KLcl) by (unfold kind_of; rewrite Ho, Ko; reflexivity).
  pose proof (alive_reach st C cl R) as A. destruct (reach_upv_alive st u C Ru) as [Nu Au].
  set (f := fun b => with_upv b (list_set (o_upv b) i u)). set (s1 := modify st cl f).
  assert (I1 : InvX (Some cl) s1).
  { apply (InvX_modify cl f st (InvX_ex cl st Iv)); [|reflexivity|].
    - intros b Hb. rewrite Ho in Hb. inversion Hb; subst b. split; [|reflexivity]. constructor; cbn; auto.
      + pose proof (q_kwf _ C cl ob Ho) as W. unfold kwf in *. cbn. rewrite Ko in *. exact W.
      + intros x J. apply list_set_in in J. destruct J as [J | ->]; auto.
    - intros b m Hb Hm. rewrite Ho in Hb. inversion Hb; subst b. cbn in Hm. apply (q_meta _ C cl ob m A Ho Hm). }
  pose proof (modify_all st cl f) as FF. fold s1 in FF. destruct FF as [F1 [F2 [F3 [F4 [F5 _]]]]].
  set (s2 := match uvs s1 u with
             | Some (UOpen th j _) => set_uvs s1 (fun x => if Nat.eqb x u then Some (UOpen th j true) else uvs s1 x) (nextuv s1)
             | _ => s1 end).
  assert (H2 : heap s2 = heap s1 /\ gcs s2 = gcs s1 /\ allweak s2 = allweak s1) by (unfold s2; destruct (uvs s1 u) as [[]|]; auto).
  destruct H2 as [H2 [G2 Aw2]].
  assert (Kp2 : keepinvariant s2 = keepinvariant st) by (rewrite (keep_gcs s1 _ G2); apply (keep_gcs st _ F5)).
  assert (Op : keepinvariant st = true -> forall x, openok MA s1 x -> openok MA s2 x).
  { intros _ x. unfold s2. destruct (uvs s1 u) as [[th j t|v]|] eqn:E; auto. unfold openok. cbn [uvs set_uvs].
    destruct (Nat.eqb_spec x u) as [->|]; [auto|]. destruct (uvs s1 x) as [[]|]; auto. }
  assert (E2 : s2 = s1 \/ exists th j t, uvs s1 u = Some (UOpen th j t) /\ s2 = set_uvs s1 (fun x => if Nat.eqb x u then Some (UOpen th j true) else uvs s1 x) (nextuv s1)).
  { unfold s2. destruct (uvs s1 u) as [[th j t|v]|]; eauto 8. }
  assert (I2 : InvX (Some cl) s2).
  { clearbody s2. destruct E2 as [-> | [th [j [t [E Es]]]]]; [exact I1|]. destruct I1 as [C1 [L1 P1]].
    set (g := fun x => if Nat.eqb x u then Some (UOpen th j true) else uvs s1 x) in *. subst s2.
    split; [|split].
    - apply (Core_uvs s1 _ C1); try reflexivity. intros x. cbn. unfold g. destruct (Nat.eqb_spec x u) as [->|]; [|auto]. right; left. rewrite E. eauto 6.
    - apply (Lists_shape s1 _ L1), shape_same; reflexivity.
    - destruct (PhaseX_cases _ _ P1) as [[Kp M] | [Kp S]].
      + apply PhaseX_mark; [apply (PhaseX_na _ _ P1) | exact Kp|]. apply (MarkX_uvs _ s1 _ M); try reflexivity; try (apply incl_refl). apply Op. rewrite <- (keep_gcs st _ F5). exact Kp.
      + apply PhaseX_swp; [exact Kp|]. apply (Swp_keep s1 _ S); try reflexivity. intros o b Hb. right. exists b. auto. }
  assert (X0 : keepinvariant st = true -> o_col ob = Black -> (forall b, oref ob b -> iswhite st b = false) /\ forall x, In x (o_upv ob) -> openok MA st x).
  { intros Kp B. destruct (Inv_PX cl st Iv Kp ob Ho) as [X1 _]. destruct (X1 B) as [_ [X2 X3]]. split; [|exact X3]. intros b Rb. destruct (X2 b Rb) as [[] | Z]; exact Z. }
  assert (Wh : forall x, iswhite s2 x = iswhite st x) by (intros x; unfold iswhite; rewrite H2; apply (modify_white st cl f x); reflexivity).
  assert (Hc : heap s2 cl = Some (f ob)) by (rewrite H2; apply (heap_modify_eq st cl f ob Ho)).
  assert (O1 : forall x, openok MA st x -> openok MA s1 x).
  { intros x. unfold openok. rewrite F2. destruct (uvs st x) as [[]|]; auto. unfold valnw, valiswhite. destruct v; auto. rewrite (modify_white st cl f); auto. }
  assert (Mt : o_meta ob = None) by (pose proof (q_kwf _ C cl ob Ho) as W; unfold kwf in W; rewrite Ko in W; apply W).
  (* the state with the barrier *)
  assert (Fin : forall s3, InvX (Some cl) s3 -> mrel s2 s3 -> (keepinvariant st = true -> openok MA s3 u) -> Inv s3).
  { intros s3 I3 M Ou. apply (InvX_undo cl s3 I3). intros Kp b Hb. pose proof (mrel_fields _ _ M) as Fl. destruct Fl as [_ [_ [_ [_ [Fg _]]]]].
    assert (Ks : keepinvariant st = true) by (rewrite <- Kp2, <- (keep_gcs s2 _ Fg); exact Kp).
    destruct (mrel_some_inv _ _ _ _ M Hb) as [b2 [Hb2 [Eb Cl]]]. rewrite Hc in Hb2. inversion Hb2; subst b2. split.
    - intros Bk. assert (B0 : o_col ob = Black).
      { destruct Cl as [Q | [_ [[_ [Q _]] | [Q _]]]]; [rewrite Bk in Q; symmetry; exact Q | exfalso; apply Q; unfold f; cbn; rewrite Ko; exact Logic.I | congruence]. }
      destruct (X0 Ks B0) as [Y1 Y2]. rewrite Eb. split; [cbn; rewrite Ko; discriminate|]. split.
      + intros x Rx. right. apply (mrel_nw _ _ _ M). rewrite Wh. apply Y1. exact Rx.
      + intros x Ix. cbn in Ix. apply list_set_in in Ix. destruct Ix as [Ix | ->]; [|apply (Ou Ks)].
        apply (openok_mrel s2 s3 x M), (Op Ks), O1, Y2, Ix.
    - intros _ m Hm. rewrite Eb in Hm. cbn in Hm. congruence. }
  destruct (keepinvariant st) eqn:Kp.
  - clear E2. destruct (uvs s2 u) as [[th j t|v]|] eqn:E2.
    + assert (Eu : upvalbarrier s2 u = s2) by (unfold upvalbarrier; rewrite E2; reflexivity). rewrite Eu. apply (Fin s2 I2 (mrel_refl s2)).
      intros _. unfold openok. rewrite E2. unfold s2 in E2. destruct (uvs s1 u) as [[th' j' t'|v]|] eqn:E1; try congruence.
      cbn in E2. rewrite Nat.eqb_refl in E2. inversion E2. reflexivity.
    + rewrite (upvalbarrier_val s2 u v E2 Kp2).
      assert (T2 : typ s2) by (destruct I2 as [C2 [_ P2]]; destruct (PhaseX_cases _ _ P2) as [[_ M2] | [Q _]]; [apply (Core_typ _ _ C2 M2) | congruence]).
      destruct (mark_val_ok s2 v T2) as [M Nw]. apply Fin; [apply (InvX_mrel _ _ _ I2 Kp2 M) | exact M|]. intros _.
      unfold openok. pose proof (mrel_fields _ _ M) as [_ [Fu _]]. rewrite Fu, E2. unfold valnw, valiswhite. destruct v; auto.
    + assert (Eu : upvalbarrier s2 u = s2) by (unfold upvalbarrier; rewrite E2; reflexivity). rewrite Eu. apply (Fin s2 I2 (mrel_refl s2)).
      intros _. unfold openok. rewrite E2. exact Logic.I.
  - rewrite upvalbarrier_no by exact Kp2. apply (Fin s2 I2 (mrel_refl s2)). congruence.
Qed.

(** ** Allocation *)

Lemma in_split_after : forall o n l, n <> o -> snd (split_after o (n :: l)) = snd (split_after o l).
Proof. intros o n l N. cbn. apply Nat.eqb_neq in N. rewrite N. destruct (split_after o l); reflexivity. Qed.

Lemma split_after_notin : forall o l, ~ In o l -> snd (split_after o l) = [].
Proof.
  induction l as [|x l IH]; intros N; [reflexivity|]. cbn. destruct (Nat.eqb_spec x o) as [->|]; [elim N; left; reflexivity|].
  destruct (split_after o l) eqn:E. apply IH. intros J. apply N. right. exact J.
Qed.

Lemma kwf_blank : forall st k vs us, legal st (MNew k vs us) -> kwf (blank k (cw st) vs us).
Proof.
  intros st k vs us [_ [_ H]]. unfold kwf, blank. cbn. destruct k; cbn in *; decompose [and] H; subst; repeat split; auto.
  destruct H0 as [-> | [p ->]]; cbn; lia.
Qed.

Lemma alloc_inv : forall st k vs us, Inv st -> legal st (MNew k vs us) -> Inv (alloc st k vs us) /\ alive (alloc st k vs us) (nextid st).
Proof.
  intros st k vs us [C [L P]] Lg. pose proof (kwf_blank st k vs us Lg) as W. destruct Lg as [Fv [Fu _]]. rewrite Forall_forall in Fv, Fu.
  destruct (Core_alloc st k vs us C W) as [C' A'].
  { intros b J. apply (alive_reach st C b (Fv _ J)). }
  { intros u J. apply (reach_upv_alive st u C (Fu u J)). }
  split; [|exact A']. set (o := nextid st) in *. set (nb := blank k (cw st) vs us) in *. set (st' := alloc st k vs us) in *.
  assert (Hh : forall x, heap st' x = if Nat.eqb x o then Some nb else heap st x) by reflexivity.
  assert (No : heap st o = None).
  { destruct (heap st o) as [ob|] eqn:E; [|reflexivity]. pose proof (q_lt _ C o ob E). unfold o in *. lia. }
  assert (Nl : forall x, heap st x <> None -> x <> o) by (intros x H Q; congruence).
  split; [exact C'|]. split.
  - destruct L as [N H F]. assert (NI : ~ In o (objs st)) by (intros J; apply H in J; congruence).
    constructor.
    + change (objs st') with (o :: objs st). constructor; assumption.
    + intros x. change (objs st') with (o :: objs st). rewrite Hh. cbn [In]. destruct (Nat.eqb_spec x o) as [->|n]; [split; [discriminate | auto]|].
      rewrite H. split; [intros [Q | Q]; congruence | auto].
    + intros x xb Hx. rewrite Hh in Hx. change (finobj st') with (finobj st). change (tobefnz st') with (tobefnz st). destruct (Nat.eqb_spec x o) as [->|n]; [|apply (F x xb Hx)].
      inversion Hx; subst xb. cbn. split; [discriminate|]. intros J. exfalso. apply NI. apply in_objs. apply in_app_or in J. destruct J; auto.
  - destruct (Phase_cases st P) as [[Kp M] | [Kp S]].
    + apply Phase_mark; [apply (PhaseX_na None st P) | exact Kp|].
      assert (Wd : forall x, x <> o -> iswhite st' x = iswhite st x).
      { intros x n. unfold iswhite. rewrite Hh. apply Nat.eqb_neq in n. rewrite n. reflexivity. }
      assert (Kd : forall x, x <> o -> kind_of st' x = kind_of st x).
      { intros x n. unfold kind_of. rewrite Hh. apply Nat.eqb_neq in n. rewrite n. reflexivity. }
      assert (Al : forall x, heap st x <> None -> alive st x) by (intros x H; split; [exact H | apply allcw_dead, (mk_cw _ _ M)]).
      assert (Ed : forall a b, heap st a <> None -> edge st a b -> b <> o) by (intros a b H E; apply Nl, (q_edge _ C a b (Al a H) E)).
      destruct M as [[T Tc Tw [Gn Gc Gt]] A G Ww E Mn Fn].
      constructor.
      * constructor.
        -- destruct T as [T1 T2 T3]. constructor.
           ++ intros x xb H. rewrite Hh in H. destruct (Nat.eqb_spec x o) as [->|]; [inversion H; subst; exact W | apply (T1 x xb H)].
           ++ intros x xb m H Hx. rewrite Hh in H. destruct (Nat.eqb_spec x o) as [->|]; [inversion H; subst xb; discriminate|].
              pose proof (T2 x xb m H Hx) as Q. rewrite Kd; [exact Q|]. apply Nl. unfold kind_of in Q. destruct (heap st m); congruence.
           ++ intros x xb H. change (nextid st') with (S o). rewrite Hh in H. destruct (Nat.eqb_spec x o) as [->|]; [lia|]. pose proof (T3 x xb H). unfold o. lia.
        -- intros x xb n H Hx. rewrite Hh in H. destruct (Nat.eqb_spec x o) as [->|nx].
           { exfalso. unfold iswhite in Hx. rewrite Hh, Nat.eqb_refl in Hx. discriminate. }
           rewrite (Wd x nx) in Hx. assert (Hx0 : heap st x <> None) by congruence.
           destruct (Tc x xb n H Hx) as [Q | [Q | [Q | Q]]]; [left; exact Q | right; left; exact Q | right; right; left; exact Q | right; right; right].
           assert (Me : metanw st xb -> metanw st' xb).
           { intros Pm b Hb. rewrite Wd; [apply Pm, Hb|]. apply (Ed x b Hx0). eapply e_meta; eassumption. }
           destruct Q as [Q | [[Q _] | [[Q Q1] | [Q _]]]].
           ++ left. destruct Q as [P1 [P2 P3]]. split; [exact P1|]. split.
              ** intros b Rb. rewrite Wd; [apply P2, Rb|]. apply (Ed x b Hx0), (edge_oref st x b xb H Rb).
              ** intros u Iu. specialize (P3 u Iu). unfold openok in *. change (uvs st' u) with (uvs st u). destruct (uvs st u) as [[]|] eqn:Eu; auto.
                 unfold valnw, valiswhite in *. destruct v as [|p|b]; auto. rewrite Wd; [exact P3|]. apply (Ed x b Hx0). eapply e_closed; eassumption.
           ++ rewrite Ww in Q. destruct Q.
           ++ right; right; left. split; [exact Q | apply Me, Q1].
           ++ rewrite E in Q. destruct Q.
        -- intros x xb H Hx. rewrite Hh in H. destruct (Nat.eqb_spec x o) as [->|]; [inversion H; subst xb; elim Hx; reflexivity | destruct (Tw x xb H Hx) as [Q | [Q _]]; [left; exact Q | discriminate]].
        -- constructor; [exact Gn | |].
           ++ intros x J. destruct (Gc x J) as [xb [H Q]]. exists xb. split; [|exact Q]. rewrite Hh. assert (n : x <> o) by (apply Nl; congruence). apply Nat.eqb_neq in n. rewrite n. exact H.
           ++ intros x J. pose proof (Gt x J) as Q. rewrite Kd; [exact Q|]. apply Nl. unfold kind_of in Q. destruct (heap st x); congruence.
      * intros x xb w H Cx. rewrite Hh in H. change (cw st') with (cw st). destruct (Nat.eqb_spec x o) as [->|]; [inversion H; subst xb; inversion Cx; reflexivity | apply (A x xb w H Cx)].
      * intros x xb H Cx. rewrite Hh in H. destruct (Nat.eqb_spec x o) as [->|]; [inversion H; subst xb; discriminate | apply (G x xb H Cx)].
      * exact Ww.
      * exact E.
      * change (mainth st') with (mainth st). rewrite Wd; [exact Mn|]. apply Nl, (q_root _ C), r_main. reflexivity.
      * intros x J. change (tobefnz st') with (tobefnz st) in J. rewrite Wd; [apply Fn, J|]. apply Nl, (q_root _ C), r_fin, J.
    + apply Phase_sw; [exact Kp|]. intros x xb H. rewrite Hh in H. change (cw st') with (cw st). change (fixedgc st') with (fixedgc st).
      destruct (Nat.eqb_spec x o) as [->|n]; [inversion H; subst xb; auto|]. destruct (S x xb H) as [Q | [Q | Q]]; auto. left.
      unfold unswept in *. change (gcs st') with (gcs st). change (finobj st') with (finobj st). change (tobefnz st') with (tobefnz st). change (allgc st') with (o :: allgc st).
      destruct (gcs st); try exact Q. unfold behind in *. change (sweepgc st') with (sweepgc st).
      apply in_app_or in Q. apply in_or_app. destruct Q as [Q | Q]; [left | right; exact Q].
      destruct (sweepgc st) as [[|y]|]; cbn [split_ptr] in *; [right; exact Q | | exact Q].
      destruct (Nat.eq_dec o y) as [<-|ny]; [|rewrite in_split_after by exact ny; exact Q].
      exfalso. rewrite split_after_notin in Q; [destruct Q|]. intros J. assert (In o (objs st)) as J2 by (apply in_objs; auto). apply (l_heap _ L) in J2. congruence.
Qed.

Lemma new_inv : forall st k vs us, Inv st -> legal st (MNew k vs us) -> Inv (step st (MNew k vs us)).
Proof.
  intros st k vs us Iv Lg. cbn [step]. rewrite newobj_alloc. destruct (alloc_inv st k vs us Iv Lg) as [I' A']. apply (push_inv _ _ I').
  intros o Q. inversion Q; subst o. exact A'.
Qed.
