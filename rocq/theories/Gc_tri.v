(** The tri-colour invariant while objects are being traversed. *)
From Coq Require Import ZArith List Bool Arith Lia.
From Verif Require Import Base Gc_model Gc_spec Gc_facts.
Import ListNotations.
Local Open Scope nat_scope.

(** ** What the collector may do to the contents of objects *)

Definition vsub (x y : val) : Prop := y = x \/ y = VNil.
Definition esub (x y : key * val) : Prop :=
  (fst y = fst x \/ (exists o, fst x = KyObj o /\ fst y = KyDead o /\ snd y = VNil)) /\ vsub (snd x) (snd y).

Record osub (a b : obj) : Prop := {
  os_kind : o_kind b = o_kind a;
  os_fin : o_fin b = o_fin a;
  os_meta : o_meta b = o_meta a;
  os_mode : o_mode b = o_mode a;
  os_gc : o_gc b = o_gc a;
  os_upv : o_upv b = o_upv a;
  os_top : o_top b = o_top a;
  os_open : o_open b = o_open a;
  os_col : is_whitec (o_col b) = true -> o_col b = o_col a;
  os_vals : Forall2 vsub (o_vals a) (o_vals b);
  os_hash : Forall2 esub (o_hash a) (o_hash b);
  os_cache : o_cache b = o_cache a \/ o_cache b = None
}.

Definition usub (x y : option upv) : Prop :=
  match x with
  | Some (UOpen th i _) => exists t, y = Some (UOpen th i t)
  | _ => y = x
  end.

Record shr (st st' : gst) : Prop := {
  sh_none : forall o, heap st o = None -> heap st' o = None;
  sh_some : forall o a, heap st o = Some a -> exists b, heap st' o = Some b /\ osub a b;
  sh_uv : forall u, usub (uvs st u) (uvs st' u);
  sh_fld : nextid st' = nextid st /\ nextuv st' = nextuv st /\ cw st' = cw st /\ gcs st' = gcs st /\
    allgc st' = allgc st /\ finobj st' = finobj st /\ tobefnz st' = tobefnz st /\ fixedgc st' = fixedgc st /\
    sweepgc st' = sweepgc st /\ mainth st' = mainth st /\ curth st' = curth st /\ registry st' = registry st /\
    mts st' = mts st /\ strcache st' = strcache st /\ memerr st' = memerr st
}.

Lemma Forall2_refl : forall (A : Type) (R : A -> A -> Prop), (forall x, R x x) -> forall l, Forall2 R l l.
Proof. intros A R H. induction l; constructor; auto. Qed.
Lemma Forall2_trans : forall (A : Type) (R : A -> A -> Prop), (forall x y z, R x y -> R y z -> R x z) ->
  forall a b c, Forall2 R a b -> Forall2 R b c -> Forall2 R a c.
Proof.
  intros A R H a b c H1. revert c. induction H1; intros c H2; inversion H2; subst; constructor; eauto.
Qed.

Lemma F2_length : forall (A B : Type) (R : A -> B -> Prop) a b, Forall2 R a b -> length a = length b.
Proof. induction 1; cbn; congruence. Qed.

Lemma vsub_refl : forall x, vsub x x. Proof. left; reflexivity. Qed.
Lemma esub_refl : forall x, esub x x. Proof. split; [left; reflexivity | apply vsub_refl]. Qed.
Lemma vsub_trans : forall x y z, vsub x y -> vsub y z -> vsub x z.
Proof. intros x y z [-> | ->] [-> | ->]; unfold vsub; auto. Qed.
Lemma esub_trans : forall x y z, esub x y -> esub y z -> esub x z.
Proof.
  intros x y z [A B] [C D]. split; [|apply (vsub_trans _ _ _ B D)].
  destruct C as [C | [o [C [C2 C3]]]].
  - destruct A as [A | [o [A1 [A2 A3]]]]; [left; congruence|]. right. exists o. split; [exact A1|]. split; [congruence|].
    destruct D as [D | D]; congruence.
  - destruct A as [A | [o' [A1 [A2 A3]]]]; [|congruence]. right. exists o. split; [congruence|]. split; [exact C2 | exact C3].
Qed.

Lemma osub_refl : forall a, osub a a.
Proof. intros a. constructor; auto; apply Forall2_refl; [apply vsub_refl | apply esub_refl]. Qed.

Lemma osub_trans : forall a b c, osub a b -> osub b c -> osub a c.
Proof.
  intros a b c [] []. constructor; try congruence.
  - intros H. rewrite <- os_col0; [apply os_col1, H|]. rewrite <- os_col1; assumption.
  - apply (Forall2_trans _ _ vsub_trans _ _ _ os_vals0 os_vals1).
  - apply (Forall2_trans _ _ esub_trans _ _ _ os_hash0 os_hash1).
  - destruct os_cache1 as [-> | ->]; auto.
Qed.

Lemma osub_col : forall a c, (is_whitec c = true -> c = o_col a) -> osub a (with_col a c).
Proof. intros a c H. destruct a. constructor; auto; apply Forall2_refl; [apply vsub_refl | apply esub_refl]. Qed.

Lemma usub_refl : forall x, usub x x.
Proof. intros [[]|]; cbn; eauto. Qed.
Lemma usub_trans : forall x y z, usub x y -> usub y z -> usub x z.
Proof.
  intros [[th i t|v]|] y z H1 H2; cbn in *.
  - destruct H1 as [t1 ->]. cbn in H2. exact H2.
  - subst y. exact H2.
  - subst y. exact H2.
Qed.

Lemma shr_refl : forall st, shr st st.
Proof.
  intros st. constructor; auto.
  - intros o a H. exists a. split; [exact H | apply osub_refl].
  - intros u. apply usub_refl.
  - repeat split.
Qed.

Lemma shr_trans : forall a b c, shr a b -> shr b c -> shr a c.
Proof.
  intros a b c H1 H2. constructor.
  - intros o E. apply (sh_none _ _ H2), (sh_none _ _ H1), E.
  - intros o x E. destruct (sh_some _ _ H1 o x E) as [y [Ey Sy]]. destruct (sh_some _ _ H2 o y Ey) as [z [Ez Sz]].
    exists z. split; [exact Ez | apply (osub_trans _ _ _ Sy Sz)].
  - intros u. apply (usub_trans _ _ _ (sh_uv _ _ H1 u) (sh_uv _ _ H2 u)).
  - pose proof (sh_fld _ _ H1) as F. pose proof (sh_fld _ _ H2) as F'.
    decompose [and] F. decompose [and] F'. repeat split; congruence.
Qed.

Lemma shr_mrel : forall st st', mrel st st' -> shr st st'.
Proof.
  intros st st' M. mfields M. constructor.
  - apply (r_none _ _ M).
  - intros o a E. destruct (r_some _ _ M o a E) as [b [Eb [W C]]]. exists b. split; [exact Eb|]. rewrite W.
    apply osub_col. intros Hw. destruct C as [C | [_ [[C _] | [C _]]]]; [exact C | |]; rewrite C in Hw; discriminate.
  - intros u. rewrite Fuvs. apply usub_refl.
  - repeat split; assumption.
Qed.

Lemma shr_kind : forall st st' o, shr st st' -> kind_of st' o = kind_of st o.
Proof.
  intros st st' o S. unfold kind_of. destruct (heap st o) as [a|] eqn:E.
  - destruct (sh_some _ _ S o a E) as [b [Eb Sb]]. rewrite Eb, (os_kind _ _ Sb). reflexivity.
  - rewrite (sh_none _ _ S o E). reflexivity.
Qed.

Lemma shr_inv : forall st st' o b, shr st st' -> heap st' o = Some b -> exists a, heap st o = Some a /\ osub a b.
Proof.
  intros st st' o b S H. destruct (heap st o) as [a|] eqn:E.
  - destruct (sh_some _ _ S o a E) as [b' [Eb Sb]]. exists a. split; [reflexivity|]. congruence.
  - rewrite (sh_none _ _ S o E) in H. discriminate.
Qed.

Lemma shr_white : forall st st' o, shr st st' -> iswhite st' o = true -> iswhite st o = true.
Proof.
  intros st st' o S H. unfold iswhite in *. destruct (heap st' o) as [b|] eqn:E; [|discriminate].
  destruct (shr_inv _ _ _ _ S E) as [a [Ea Sa]]. rewrite Ea. rewrite <- (os_col _ _ Sa H). exact H.
Qed.

Lemma shr_nw : forall st st' o, shr st st' -> iswhite st o = false -> iswhite st' o = false.
Proof.
  intros. destruct (iswhite st' o) eqn:E; [|reflexivity]. rewrite (shr_white _ _ _ H E) in H0. discriminate.
Qed.

Lemma Forall2_vsub_in : forall a b x, Forall2 vsub a b -> In (VObj x) b -> In (VObj x) a.
Proof.
  induction 1 as [|u v a b S F IH]; intros I; [destruct I|].
  destruct I as [-> | I]; [left | right; apply IH, I]. destruct S as [<- | C]; [reflexivity | discriminate].
Qed.

Lemma Forall2_esub_in : forall a b k v, Forall2 esub a b -> In (k, v) b ->
  exists k0 v0, In (k0, v0) a /\ esub (k0, v0) (k, v).
Proof.
  induction 1 as [|u w a b S F IH]; intros I; [destruct I|].
  destruct I as [-> | I].
  - destruct u as [k0 v0]. exists k0, v0. split; [left; reflexivity | exact S].
  - destruct (IH I) as [k0 [v0 [A B]]]. exists k0, v0. split; [right; exact A | exact B].
Qed.

Lemma osub_oref : forall a b r, osub a b -> oref b r -> oref a r.
Proof.
  intros a b r S [R | [R | [[v R] | [[k R] | R]]]].
  - left. rewrite <- (os_meta _ _ S). exact R.
  - right; left. apply (Forall2_vsub_in _ _ _ (os_vals _ _ S) R).
  - right; right; left. destruct (Forall2_esub_in _ _ _ _ (os_hash _ _ S) R) as [k0 [v0 [I [E _]]]].
    cbn in E. destruct E as [E | [o [_ [E _]]]]; [subst k0; exists v0; exact I | discriminate].
  - right; right; right; left. destruct (Forall2_esub_in _ _ _ _ (os_hash _ _ S) R) as [k0 [v0 [I [_ V]]]].
    cbn in V. destruct V as [V | V]; [subst v0; exists k0; exact I | discriminate].
  - right; right; right; right. destruct (os_cache _ _ S) as [E | E]; congruence.
Qed.

Lemma kwf_osub : forall a b, osub a b -> kwf a -> kwf b.
Proof.
  intros a b S K. unfold kwf in *. rewrite (os_kind _ _ S), (os_meta _ _ S), (os_upv _ _ S), (os_open _ _ S).
  assert (V0 : o_vals a = [] -> o_vals b = []) by (intros E; pose proof (os_vals _ _ S) as F; rewrite E in F; inversion F; reflexivity).
  assert (V1 : length (o_vals b) = length (o_vals a)) by (symmetry; apply (F2_length _ _ _ _ _ (os_vals _ _ S))).
  assert (H0 : o_hash a = [] -> o_hash b = []) by (intros E; pose proof (os_hash _ _ S) as F; rewrite E in F; inversion F; reflexivity).
  assert (C0 : o_cache a = None -> o_cache b = None) by (intros E; destruct (os_cache _ _ S) as [-> | ->]; auto).
  destruct (o_kind a); try rewrite V1; intuition.
Qed.

Lemma typ_shr : forall st st', typ st -> shr st st' -> typ st'.
Proof.
  intros st st' T S. constructor.
  - intros o b E. destruct (shr_inv _ _ _ _ S E) as [a [Ea Sa]]. apply (kwf_osub a b Sa), (t_kwf _ T o a Ea).
  - intros o b m E Hm. destruct (shr_inv _ _ _ _ S E) as [a [Ea Sa]]. rewrite (shr_kind _ _ _ S).
    apply (t_meta _ T o a m Ea). rewrite <- (os_meta _ _ Sa). exact Hm.
  - intros o b E. destruct (shr_inv _ _ _ _ S E) as [a [Ea Sa]]. pose proof (sh_fld _ _ S) as F.
    destruct F as [F _]. rewrite F. apply (t_fresh _ T o a Ea).
Qed.

Lemma Forall2_nth_vsub : forall a b, Forall2 vsub a b -> forall i, vsub (nth i a VNil) (nth i b VNil).
Proof.
  induction 1 as [|u v a b S F IH]; intros i; destruct i; cbn; try apply vsub_refl; [exact S | apply IH].
Qed.

Lemma uv_val_shr : forall st st' u, shr st st' -> vsub (uv_val st u) (uv_val st' u).
Proof.
  intros st st' u S. pose proof (sh_uv _ _ S u) as U. unfold uv_val. destruct (uvs st u) as [[th i t|v]|]; cbn in U.
  - destruct U as [t' ->]. destruct (heap st th) as [a|] eqn:E.
    + destruct (sh_some _ _ S th a E) as [b [Eb Sb]]. rewrite Eb. apply Forall2_nth_vsub, (os_vals _ _ Sb).
    + rewrite (sh_none _ _ S th E). apply vsub_refl.
  - rewrite U. apply vsub_refl.
  - rewrite U. apply vsub_refl.
Qed.

(** ** The invariant *)

(** Where we are: propagating; in the atomic phase before, and after, the open
    upvalues of unmarked threads were looked at. *)
Inductive mode := MA | MB | MC.

Definition valnw (st : gst) (v : val) : Prop := valiswhite st v = false.

Definition openok (m : mode) (st : gst) (u : nat) : Prop :=
  match uvs st u with
  | Some (UOpen th i t) =>
      match m with
      | MA => t = true
      | MB => t = true \/ valnw st (uv_val st u) \/ iswhite st th = false
      | MC => valnw st (uv_val st u) \/ iswhite st th = false
      end
  | Some (UClosed v) => valnw st v
  | None => True
  end.

(** A marked object that needs no further visit. *)
Definition full (m : mode) (st : gst) (ob : obj) : Prop :=
  (o_kind ob = KThread -> m <> MA) /\
  (forall b, oref ob b -> iswhite st b = false) /\
  (forall u, In u (o_upv ob) -> openok m st u).

Definition metanw (st : gst) (ob : obj) : Prop := forall b, o_meta ob = Some b -> iswhite st b = false.
Definition keysnw (st : gst) (ob : obj) : Prop := forall b v, In (KyObj b, v) (o_hash ob) -> iswhite st b = false.
Definition valsnw (st : gst) (ob : obj) : Prop := forall b, In (VObj b) (o_vals ob) -> iswhite st b = false.

Definition done (m : mode) (st : gst) (o : id) (ob : obj) : Prop :=
  full m st ob \/
  (In o (weak st) /\ metanw st ob /\ keysnw st ob) \/
  (In o (allweak st) /\ metanw st ob) \/
  (In o (ephemeron st) /\ metanw st ob /\ valsnw st ob).

Definition pend (m : mode) (E : list id) (st : gst) (o : id) : Prop :=
  match m with MA => In o (grayagain st) | _ => In o E end.

Definition TC (m : mode) (E : list id) (ex : option id) (st : gst) : Prop :=
  forall o ob, Some o <> ex -> heap st o = Some ob -> iswhite st o = false ->
    In o (fixedgc st) \/ In o (gray st) \/ pend m E st o \/ done m st o ob.

Definition glists (E : list id) (st : gst) : list id :=
  gray st ++ grayagain st ++ weak st ++ allweak st ++ ephemeron st ++ E.

Record gl (E : list id) (st : gst) : Prop := {
  g_nodup : NoDup (glists E st);
  g_col : forall o, In o (glists E st) -> exists ob, heap st o = Some ob /\ o_col ob = Gray /\ linkable (o_kind ob);
  g_tab : forall o, In o (weak st ++ allweak st ++ ephemeron st) -> kind_of st o = Some KTable
}.

(** Threads with open upvalues are in 'twups'; late in the atomic phase only those
    that have been traversed. *)
Definition TW (m : mode) (E : list id) (ex : option id) (st : gst) : Prop :=
  forall o ob, heap st o = Some ob -> o_open ob <> [] ->
    In o (twups st) \/ (m = MC /\ (Some o = ex \/ iswhite st o = true \/ In o (gray st) \/ In o E)).

Record CI (m : mode) (E : list id) (ex : option id) (st : gst) : Prop := {
  c_typ : typ st;
  c_tc : TC m E ex st;
  c_tw : TW m E ex st;
  c_gl : gl E st
}.

Definition upg (m : mode) (x y : option upv) : Prop :=
  match x with
  | Some (UOpen th i t) => exists t', y = Some (UOpen th i t') /\ (t = true -> m <> MC -> t' = true)
  | _ => y = x
  end.

Lemma upg_refl : forall m x, upg m x x.
Proof. intros m [[]|]; cbn; eauto. Qed.

Lemma openok_mono : forall m st st' u, openok m st u -> shr st st' -> upg m (uvs st u) (uvs st' u) -> openok m st' u.
Proof.
  intros m st st' u H S U. unfold openok in *. pose proof (uv_val_shr _ _ u S) as V.
  assert (VN : valnw st (uv_val st u) -> valnw st' (uv_val st' u)).
  { unfold valnw. intros N. destruct V as [-> | ->]; [|reflexivity]. destruct (uv_val st u); try reflexivity.
    apply (shr_nw _ _ _ S), N. }
  destruct (uvs st u) as [[th i t|v]|]; cbn in U.
  - destruct U as [t' [-> T]]. destruct m.
    + apply T; [exact H | discriminate].
    + destruct H as [H | [H | H]]; [left; apply T; [exact H | discriminate] | right; left; apply VN, H | right; right; apply (shr_nw _ _ _ S), H].
    + destruct H as [H | H]; [left; apply VN, H | right; apply (shr_nw _ _ _ S), H].
  - rewrite U. unfold valnw in *. destruct v; try reflexivity. apply (shr_nw _ _ _ S), H.
  - rewrite U. exact I.
Qed.

Lemma full_mono2 : forall m st st' ob, full m st ob -> shr st st' -> (forall u, openok m st u -> openok m st' u) -> full m st' ob.
Proof.
  intros m st st' ob [A [B C]] S U. split; [exact A|]. split.
  - intros b R. apply (shr_nw _ _ _ S), B, R.
  - intros u I. apply (U u (C u I)).
Qed.

Lemma full_mono : forall m st st' ob, full m st ob -> shr st st' -> (forall u, upg m (uvs st u) (uvs st' u)) -> full m st' ob.
Proof.
  intros m st st' ob F S U. apply (full_mono2 m st st' ob F S). intros u O. apply (openok_mono m st st' u O S (U u)).
Qed.

Lemma full_osub : forall m st a b, osub a b -> full m st a -> full m st b.
Proof.
  intros m st a b S [A [B C]]. split; [rewrite (os_kind _ _ S); exact A|]. split.
  - intros r R. apply B, (osub_oref a b r S R).
  - rewrite (os_upv _ _ S). exact C.
Qed.

Lemma done_mono2 : forall m st st' o a b, done m st o a -> osub a b -> shr st st' -> (forall u, openok m st u -> openok m st' u) ->
  incl (weak st) (weak st') -> incl (allweak st) (allweak st') -> incl (ephemeron st) (ephemeron st') -> done m st' o b.
Proof.
  intros m st st' o a b D O S U W A Ep.
  assert (MN : metanw st a -> metanw st' b).
  { intros H x Hx. apply (shr_nw _ _ _ S), H. rewrite <- (os_meta _ _ O). exact Hx. }
  destruct D as [D | [[I [M K]] | [[I M] | [I [M V]]]]].
  - left. apply (full_osub _ _ a b O). apply (full_mono2 m st); assumption.
  - right; left. split; [apply W, I|]. split; [apply MN, M|]. intros x v Hx. apply (shr_nw _ _ _ S).
    destruct (Forall2_esub_in _ _ _ _ (os_hash _ _ O) Hx) as [k0 [v0 [I0 [E0 _]]]].
    cbn in E0. destruct E0 as [E0 | [y [_ [E0 _]]]]; [subst k0; apply (K x v0 I0) | discriminate].
  - right; right; left. split; [apply A, I | apply MN, M].
  - right; right; right. split; [apply Ep, I|]. split; [apply MN, M|]. intros x Hx. apply (shr_nw _ _ _ S), V.
    apply (Forall2_vsub_in _ _ _ (os_vals _ _ O) Hx).
Qed.

Lemma done_mono : forall m st st' o a b, done m st o a -> osub a b -> shr st st' -> (forall u, upg m (uvs st u) (uvs st' u)) ->
  incl (weak st) (weak st') -> incl (allweak st) (allweak st') -> incl (ephemeron st) (ephemeron st') -> done m st' o b.
Proof.
  intros m st st' o a b D O S U. apply (done_mono2 m st st' o a b D O S). intros u Ou. apply (openok_mono m st st' u Ou S (U u)).
Qed.

(** Every step of the collector that touches only marks, lists and (shrinking)
    contents keeps the invariant. *)
Lemma TC_mono2 : forall m E ex st st', TC m E ex st -> shr st st' ->
  (forall u, openok m st u -> openok m st' u) ->
  (forall x, Some x <> ex -> In x (gray st) -> In x (gray st')) ->
  (m = MA -> incl (grayagain st) (grayagain st')) ->
  incl (weak st) (weak st') -> incl (allweak st) (allweak st') -> incl (ephemeron st) (ephemeron st') ->
  (forall x ob', Some x <> ex -> heap st' x = Some ob' -> iswhite st x = true -> iswhite st' x = false ->
     In x (gray st') \/ full m st' ob') ->
  TC m E ex st'.
Proof.
  intros m E ex st st' H S U G GA W A Ep N o b X Hb Wb.
  destruct (iswhite st o) eqn:Wo.
  - destruct (N o b X Hb Wo Wb) as [I | F]; [right; left; exact I | right; right; right; left; exact F].
  - destruct (shr_inv _ _ _ _ S Hb) as [a [Ea Sa]].
    destruct (H o a X Ea Wo) as [F | [F | [F | F]]].
    + left. pose proof (sh_fld _ _ S) as Fl. decompose [and] Fl. congruence.
    + right; left. apply (G o X F).
    + right; right; left. unfold pend in *. destruct m; [apply (GA eq_refl), F | exact F | exact F].
    + right; right; right. apply (done_mono2 m st st' o a b); assumption.
Qed.

Lemma TC_mono : forall m E ex st st', TC m E ex st -> shr st st' ->
  (forall u, upg m (uvs st u) (uvs st' u)) ->
  (forall x, Some x <> ex -> In x (gray st) -> In x (gray st')) ->
  (m = MA -> incl (grayagain st) (grayagain st')) ->
  incl (weak st) (weak st') -> incl (allweak st) (allweak st') -> incl (ephemeron st) (ephemeron st') ->
  (forall x ob', Some x <> ex -> heap st' x = Some ob' -> iswhite st x = true -> iswhite st' x = false ->
     In x (gray st') \/ full m st' ob') ->
  TC m E ex st'.
Proof.
  intros m E ex st st' H S U. apply (TC_mono2 m E ex st st' H S). intros u Ou. apply (openok_mono m st st' u Ou S (U u)).
Qed.

Lemma TW_mono : forall m E ex st st', TW m E ex st -> shr st st' -> incl (twups st) (twups st') ->
  (forall x, Some x <> ex -> In x (gray st) -> In x (gray st')) ->
  (forall x ob', Some x <> ex -> heap st' x = Some ob' -> iswhite st x = true -> iswhite st' x = false ->
     o_open ob' <> [] -> In x (gray st')) ->
  TW m E ex st'.
Proof.
  intros m E ex st st' H S T G N o b Hb Ho.
  destruct (shr_inv _ _ _ _ S Hb) as [a [Ea Sa]]. rewrite (os_open _ _ Sa) in Ho.
  destruct (H o a Ea Ho) as [I | [M D]]; [left; apply T, I|]. right. split; [exact M|].
  assert (X : Some o = ex \/ Some o <> ex).
  { destruct ex as [x|]; [|right; discriminate]. destruct (Nat.eq_dec o x) as [->|]; [left; reflexivity | right; congruence]. }
  destruct X as [X | X]; [left; exact X|]. destruct D as [D | [D | [D | D]]]; [left; exact D | | |].
  - destruct (iswhite st' o) eqn:W; [right; left; reflexivity|]. right; right; left. apply (N o b X Hb D W).
    rewrite (os_open _ _ Sa). exact Ho.
  - right; right; left. apply (G o X D).
  - right; right; right. exact D.
Qed.

Lemma upg_eq : forall m st st', uvs st' = uvs st -> forall u, upg m (uvs st u) (uvs st' u).
Proof. intros m st st' -> u. apply upg_refl. Qed.

Lemma not_linkable_upv : forall ob, kwf ob -> ~ linkable (o_kind ob) -> o_upv ob = [].
Proof. intros ob K L. unfold kwf in K. destruct (o_kind ob); cbn in L; tauto. Qed.

Lemma CI_mrel : forall m E ex st st', CI m E ex st -> mrel st st' -> CI m E ex st'.
Proof.
  intros m E ex st st' [T C TWi G] M. mfields M. pose proof (shr_mrel _ _ M) as S. constructor.
  - apply (typ_mrel _ _ T M).
  - destruct (r_gray _ _ M) as [l [Gl _]].
    apply (TC_mono m E ex st st' C S).
    + apply upg_eq, Fuvs.
    + intros x _ I. rewrite Gl. apply in_or_app. right. exact I.
    + rewrite Fga. intros _ x I. exact I.
    + rewrite Fweak. apply incl_refl.
    + rewrite Fallweak. apply incl_refl.
    + rewrite Feph. apply incl_refl.
    + intros x ob' _ Hb W1 W2. destruct (mrel_some_inv _ _ _ _ M Hb) as [a [Ea [Wc Cc]]].
      assert (Wa : is_whitec (o_col a) = true) by (unfold iswhite in W1; rewrite Ea in W1; exact W1).
      destruct Cc as [Cc | [_ [[B [L R]] | [B [L I]]]]].
      * unfold iswhite in W2. rewrite Hb, Cc, Wa in W2. discriminate.
      * right. rewrite Wc. split; [intros Kt; cbn in Kt; rewrite Kt in L; cbn in L; tauto|]. split.
        -- intros b Rb. apply R. apply oref_with_col in Rb. exact Rb.
        -- cbn. rewrite (not_linkable_upv a (t_kwf _ T x a Ea) L). intros u [].
      * left. exact I.
  - destruct (r_gray _ _ M) as [l [Gl _]]. apply (TW_mono m E ex st st' TWi S).
    + rewrite Ftw. apply incl_refl.
    + intros x _ I. rewrite Gl. apply in_or_app. right. exact I.
    + intros x ob' _ Hb W1 W2 Ho. destruct (mrel_some_inv _ _ _ _ M Hb) as [a [Ea [Wc Cc]]].
      assert (Wa : is_whitec (o_col a) = true) by (unfold iswhite in W1; rewrite Ea in W1; exact W1).
      destruct Cc as [Cc | [_ [[B [L R]] | [B [L I]]]]].
      * unfold iswhite in W2. rewrite Hb, Cc, Wa in W2. discriminate.
      * exfalso. apply Ho. rewrite Wc. cbn. pose proof (t_kwf _ T x a Ea) as K. unfold kwf in K.
        destruct (o_kind a); cbn in L; tauto.
      * exact I.
  - destruct (r_gray _ _ M) as [l [Gl [Nl Pl]]]. destruct G as [N Col Tab].
    assert (Ls : glists E st' = l ++ glists E st) by (unfold glists; rewrite Gl, Fga, Fweak, Fallweak, Feph, <- app_assoc; reflexivity).
    constructor.
    + rewrite Ls. apply NoDup_app; [exact Nl | exact N |]. intros x I1 I2.
      destruct (Pl x I1) as [W _]. destruct (Col x I2) as [ob [Hb [C2 _]]]. unfold iswhite in W. rewrite Hb, C2 in W. discriminate.
    + rewrite Ls. intros x I. apply in_app_or in I. destruct I as [I | I].
      * destruct (Pl x I) as [_ Q]. exact Q.
      * destruct (Col x I) as [ob [Hb [C2 L2]]]. destruct (r_some _ _ M x ob Hb) as [ob' [Hb' [Wc Cc]]].
        exists ob'. split; [exact Hb'|]. split.
        -- destruct Cc as [Cc | [Cc _]]; [congruence | rewrite C2 in Cc; discriminate].
        -- rewrite Wc. exact L2.
    + intros x I. rewrite Fweak, Fallweak, Feph in I. rewrite (mrel_kind _ _ _ M). apply Tab, I.
Qed.

(** Changing the contents of an object without touching its colour. *)
Lemma shr_modify : forall st o f, (forall a, heap st o = Some a -> osub a (f a)) -> shr st (modify st o f).
Proof.
  intros st o f H. constructor.
  - intros x E. rewrite heap_modify. destruct (Nat.eqb_spec x o) as [->|]; [rewrite E; reflexivity | exact E].
  - intros x a E. rewrite heap_modify. destruct (Nat.eqb_spec x o) as [->|].
    + rewrite E. exists (f a). split; [reflexivity | apply H, E].
    + exists a. split; [exact E | apply osub_refl].
  - intros u. rewrite modify_rest. apply usub_refl.
  - rewrite modify_rest. repeat split.
Qed.

Lemma modify_fields : forall st o f, let st' := modify st o f in
  uvs st' = uvs st /\ gray st' = gray st /\ grayagain st' = grayagain st /\ weak st' = weak st /\ allweak st' = allweak st /\
  ephemeron st' = ephemeron st /\ twups st' = twups st /\ gcs st' = gcs st /\ nextid st' = nextid st.
Proof. intros st o f. rewrite modify_rest. repeat split. Qed.

Lemma iswhite_modify : forall st o f x, (forall a, heap st o = Some a -> o_col (f a) = o_col a) ->
  iswhite (modify st o f) x = iswhite st x.
Proof.
  intros st o f x H. unfold iswhite. rewrite heap_modify. destruct (Nat.eqb_spec x o) as [->|]; [|reflexivity].
  destruct (heap st o) eqn:E; [cbn; rewrite (H o0 eq_refl); reflexivity | reflexivity].
Qed.

Lemma CI_content : forall m E ex st o f, CI m E ex st ->
  (forall a, heap st o = Some a -> osub a (f a) /\ o_col (f a) = o_col a) -> CI m E ex (modify st o f).
Proof.
  intros m E ex st o f [T C TWi G] H.
  assert (S : shr st (modify st o f)) by (apply shr_modify; intros a Ha; apply H, Ha).
  destruct (modify_fields st o f) as [F1 [F2 [F3 [F4 [F5 [F6 [F7 [F8 F9]]]]]]]].
  constructor.
  - apply (typ_shr _ _ T S).
  - apply (TC_mono m E ex st _ C S); rewrite ?F2, ?F3, ?F4, ?F5, ?F6; auto using incl_refl.
    + apply upg_eq, F1.
    + intros x ob' _ _ W1 W2. rewrite iswhite_modify in W2; [congruence|]. intros a Ha. apply H, Ha.
  - apply (TW_mono m E ex st _ TWi S); rewrite ?F7, ?F2; auto using incl_refl.
    intros x ob' _ _ W1 W2. rewrite iswhite_modify in W2; [congruence|]. intros a Ha. apply H, Ha.
  - destruct G as [N Col Tab].
    assert (Ls : glists E (modify st o f) = glists E st) by (unfold glists; rewrite F2, F3, F4, F5, F6; reflexivity).
    constructor.
    + rewrite Ls. exact N.
    + rewrite Ls. intros x I. destruct (Col x I) as [a [Ha [Ca La]]]. rewrite heap_modify.
      destruct (Nat.eqb_spec x o) as [->|]; [|exists a; auto]. rewrite Ha. exists (f a).
      destruct (H a Ha) as [Os Oc]. split; [reflexivity|]. split; [congruence|]. rewrite (os_kind _ _ Os). exact La.
    + rewrite F4, F5, F6. intros x I. rewrite (shr_kind _ _ _ S). apply Tab, I.
Qed.

(** Linking an object that is black (and hence in no list). *)
Lemma black_notin : forall E st o, gl E st -> isblack st o = true -> ~ In o (glists E st).
Proof.
  intros E st o [N Col Tab] B I. destruct (Col o I) as [a [Ha [Ca _]]]. unfold isblack in B. rewrite Ha, Ca in B. discriminate.
Qed.

Lemma shr_lists : forall st g ga w a e, shr st (set_lists st g ga w a e).
Proof.
  intros. constructor; cbn.
  - auto.
  - intros o x H. exists x. split; [exact H | apply osub_refl].
  - intros u. apply usub_refl.
  - repeat split.
Qed.

Lemma shr_paint : forall st o c, is_whitec c = false -> shr st (setcol st o c).
Proof. intros st o c H. apply shr_modify. intros a _. apply osub_col. congruence. Qed.

Lemma iswhite_setlists : forall st g ga w a e x, iswhite (set_lists st g ga w a e) x = iswhite st x.
Proof. reflexivity. Qed.

Lemma iswhite_setcol : forall st o c x, iswhite st o = false -> is_whitec c = false -> iswhite (setcol st o c) x = iswhite st x.
Proof.
  intros st o c x W H. unfold iswhite in *. rewrite heap_setcol. destruct (Nat.eqb_spec x o) as [->|]; [|reflexivity].
  destruct (heap st o); [cbn in *; congruence | reflexivity].
Qed.

Lemma in_glists : forall E st x, In x (glists E st) <->
  In x (gray st) \/ In x (grayagain st) \/ In x (weak st) \/ In x (allweak st) \/ In x (ephemeron st) \/ In x E.
Proof. intros. unfold glists. repeat rewrite in_app_iff. reflexivity. Qed.

(** [st'] has the object [o] put into the lists and painted gray. *)
Lemma CI_link : forall m E st o ob g ga w a e, CI m E (Some o) st -> heap st o = Some ob -> isblack st o = true ->
  linkable (o_kind ob) ->
  let st1 := set_lists st g ga w a e in
  let st' := setcol st1 o Gray in
  NoDup (glists E st1) ->
  (forall x, In x (glists E st1) <-> x = o \/ In x (glists E st)) ->
  (forall x, In x (weak st1 ++ allweak st1 ++ ephemeron st1) -> x = o /\ o_kind ob = KTable \/ In x (weak st ++ allweak st ++ ephemeron st)) ->
  incl (gray st) g -> incl (grayagain st) ga -> incl (weak st) w -> incl (allweak st) a -> incl (ephemeron st) e ->
  CI m E (Some o) st' /\ shr st st' /\ (forall x, iswhite st' x = iswhite st x).
Proof.
  intros m E st o ob g ga w a e [T C TWi G] Hob Bo L st1 st' N I W Ig Iga Iw Ia Ie.
  assert (Wo : iswhite st o = false).
  { unfold isblack in Bo. unfold iswhite. rewrite Hob in *. destruct (o_col ob); [discriminate | discriminate | reflexivity]. }
  assert (S : shr st st') by (apply (shr_trans _ st1); [apply shr_lists | apply shr_paint; reflexivity]).
  assert (Wx : forall x, iswhite st' x = iswhite st x) by (intros x; unfold st'; rewrite iswhite_setcol; [reflexivity | exact Wo | reflexivity]).
  assert (F : gray st' = g /\ grayagain st' = ga /\ weak st' = w /\ allweak st' = a /\ ephemeron st' = e /\ uvs st' = uvs st /\ twups st' = twups st)
    by (unfold st', setcol; rewrite modify_rest; repeat split).
  destruct F as [F1 [F2 [F3 [F4 [F5 [F6 F7]]]]]].
  split; [|split; assumption]. constructor.
  - apply (typ_shr _ _ T S).
  - apply (TC_mono m E (Some o) st st' C S); rewrite ?F1, ?F2, ?F3, ?F4, ?F5; auto.
    + apply upg_eq, F6.
    + intros x ob' _ _ W1 W2. rewrite Wx in W2. congruence.
  - apply (TW_mono m E (Some o) st st' TWi S); rewrite ?F7, ?F1; auto using incl_refl.
    intros x ob' _ _ W1 W2. rewrite Wx in W2. congruence.
  - destruct G as [N0 Col Tab].
    assert (Ls : glists E st' = glists E st1) by (unfold glists; rewrite F1, F2, F3, F4, F5; reflexivity).
    constructor.
    + rewrite Ls. exact N.
    + rewrite Ls. intros x Ix. apply I in Ix. unfold st'. rewrite heap_setcol. destruct (Nat.eqb_spec x o) as [->|n].
      * cbn. rewrite Hob. exists (with_col ob Gray). split; [reflexivity|]. split; [reflexivity | exact L].
      * destruct Ix as [-> | Ix]; [congruence|]. apply (Col x Ix).
    + rewrite F3, F4, F5. intros x Ix. rewrite (shr_kind _ _ _ S). destruct (W x Ix) as [[-> K] | Ix'].
      * unfold kind_of. rewrite Hob, K. reflexivity.
      * apply Tab, Ix'.
Qed.

Lemma CI_undo : forall m E o st, CI m E (Some o) st ->
  (forall ob, heap st o = Some ob -> iswhite st o = false ->
     In o (fixedgc st) \/ In o (gray st) \/ pend m E st o \/ done m st o ob) ->
  (forall ob, heap st o = Some ob -> o_open ob <> [] -> m = MC ->
     In o (twups st) \/ iswhite st o = true \/ In o (gray st) \/ In o E) -> CI m E None st.
Proof.
  intros m E o st [T C TWi G] H H2. constructor; [exact T | | | exact G]; cycle 1.
  { intros x xb Hx Ho. destruct (TWi x xb Hx Ho) as [I | [M D]]; [left; exact I|]. destruct D as [D | D].
    - inversion D; subst x. destruct (H2 xb Hx Ho M) as [I | I]; [left; exact I | right; split; [exact M | right; exact I]].
    - right. split; [exact M | right; exact D]. }
  intros x xb _ Hx Wx. destruct (Nat.eq_dec x o) as [->|n]; [apply (H xb Hx Wx)|].
  apply (C x xb); [congruence | exact Hx | exact Wx].
Qed.

Lemma CI_ex : forall m E o st, CI m E None st -> CI m E (Some o) st.
Proof.
  intros m E o st [T C TWi G]. constructor; [exact T | | | exact G]; cycle 1.
  { intros x xb Hx Ho. destruct (TWi x xb Hx Ho) as [I | [M D]]; [left; exact I|]. right. split; [exact M|].
    destruct D as [D | D]; [discriminate | right; exact D]. }
  intros x xb _ Hx Wx. apply (C x xb); [discriminate | exact Hx | exact Wx].
Qed.

Lemma NoDup_insert : forall (A : Type) (l1 l2 : list A) x, NoDup (l1 ++ l2) -> ~ In x (l1 ++ l2) -> NoDup (l1 ++ x :: l2).
Proof.
  intros A l1 l2 x H N. apply NoDup_Add with (a := x) (l := l1 ++ l2); [apply Add_app | split; assumption].
Qed.

Section Links.
Variables (m : mode) (E : list id) (st : gst) (o : id) (ob : obj).
Hypothesis C : CI m E (Some o) st.
Hypothesis Ho : heap st o = Some ob.
Hypothesis Bo : isblack st o = true.
Hypothesis Lo : linkable (o_kind ob).

Let NI : ~ In o (glists E st) := black_notin E st o (c_gl _ _ _ _ C) Bo.
Let ND : NoDup (glists E st) := g_nodup _ _ (c_gl _ _ _ _ C).

Lemma CI_link_gray : CI m E (Some o) (link_gray st o) /\ shr st (link_gray st o) /\ (forall x, iswhite (link_gray st o) x = iswhite st x).
Proof.
  apply (CI_link m E st o ob (o :: gray st) (grayagain st) (weak st) (allweak st) (ephemeron st) C Ho Bo Lo).
  - unfold glists. cbn. constructor; [exact NI | exact ND].
  - intros x. unfold glists. cbn. split; [intros [<- | H]; auto | intros [-> | H]; auto].
  - intros x H. right. exact H.
  - apply incl_tl, incl_refl.
  - apply incl_refl.
  - apply incl_refl.
  - apply incl_refl.
  - apply incl_refl.
Qed.

Lemma CI_link_grayagain : CI m E (Some o) (link_grayagain st o) /\ shr st (link_grayagain st o) /\ (forall x, iswhite (link_grayagain st o) x = iswhite st x).
Proof.
  apply (CI_link m E st o ob (gray st) (o :: grayagain st) (weak st) (allweak st) (ephemeron st) C Ho Bo Lo).
  - unfold glists in *. cbn. apply NoDup_insert; [exact ND | exact NI].
  - intros x. unfold glists. cbn. rewrite in_app_iff. cbn. rewrite (in_app_iff (gray st)). intuition.
  - intros x H. right. exact H.
  - apply incl_refl.
  - apply incl_tl, incl_refl.
  - apply incl_refl.
  - apply incl_refl.
  - apply incl_refl.
Qed.

Hypothesis Tab : o_kind ob = KTable.

Lemma CI_link_weak : CI m E (Some o) (link_weak st o) /\ shr st (link_weak st o) /\ (forall x, iswhite (link_weak st o) x = iswhite st x).
Proof.
  apply (CI_link m E st o ob (gray st) (grayagain st) (o :: weak st) (allweak st) (ephemeron st) C Ho Bo Lo).
  - unfold glists in *. cbn. rewrite app_assoc in *. apply NoDup_insert; [exact ND | exact NI].
  - intros x. unfold glists. cbn. repeat (rewrite in_app_iff; cbn). intuition.
  - intros x H. cbn in H. destruct H as [<- | H]; [left; split; [reflexivity | exact Tab] | right; exact H].
  - apply incl_refl.
  - apply incl_refl.
  - apply incl_tl, incl_refl.
  - apply incl_refl.
  - apply incl_refl.
Qed.

Lemma CI_link_allweak : CI m E (Some o) (link_allweak st o) /\ shr st (link_allweak st o) /\ (forall x, iswhite (link_allweak st o) x = iswhite st x).
Proof.
  apply (CI_link m E st o ob (gray st) (grayagain st) (weak st) (o :: allweak st) (ephemeron st) C Ho Bo Lo).
  - unfold glists in *. cbn. rewrite 2 app_assoc in *. apply NoDup_insert; [exact ND | exact NI].
  - intros x. unfold glists. cbn. repeat (rewrite in_app_iff; cbn). intuition.
  - intros x H. cbn in H. rewrite !in_app_iff in *. cbn in H. rewrite !in_app_iff in *. intuition.
  - apply incl_refl.
  - apply incl_refl.
  - apply incl_refl.
  - apply incl_tl, incl_refl.
  - apply incl_refl.
Qed.

Lemma CI_link_ephemeron : CI m E (Some o) (link_ephemeron st o) /\ shr st (link_ephemeron st o) /\ (forall x, iswhite (link_ephemeron st o) x = iswhite st x).
Proof.
  apply (CI_link m E st o ob (gray st) (grayagain st) (weak st) (allweak st) (o :: ephemeron st) C Ho Bo Lo).
  - unfold glists in *. cbn. rewrite 3 app_assoc in *. apply NoDup_insert; [exact ND | exact NI].
  - intros x. unfold glists. cbn. repeat (rewrite in_app_iff; cbn). intuition.
  - intros x H. cbn in H. rewrite !in_app_iff in *. cbn in H. intuition.
  - apply incl_refl.
  - apply incl_refl.
  - apply incl_refl.
  - apply incl_refl.
  - apply incl_tl, incl_refl.
Qed.
End Links.
