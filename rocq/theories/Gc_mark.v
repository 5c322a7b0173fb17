(** The invariant of a whole execution: marking. *)
From Coq Require Import ZArith List Bool Arith Lia Permutation.
From Verif Require Import Base Gc_model Gc_spec Gc_facts Gc_tri Gc_trav Gc_prop Gc_atomic Gc_fin Gc_core.
Import ListNotations.
Local Open Scope nat_scope.

Lemma NoDup_split : forall (A : Type) (a b : list A), NoDup (a ++ b) -> NoDup a /\ NoDup b /\ forall x, In x a -> In x b -> False.
Proof.
  intros A a b. induction a as [|y a IH]; intros N; cbn in *; [split; [constructor | split; [exact N | intros x []]]|].
  inversion N as [|? ? Ny N']; subst. destruct (IH N') as [Na [Nb D]]. split; [constructor; [|exact Na]; intros I; apply Ny, in_or_app; auto|].
  split; [exact Nb|]. intros x [<- | I] J; [apply Ny, in_or_app; auto | apply (D x I J)].
Qed.

(** ** Gray objects are in a list *)

Section Keep2.
Variable K : gst -> gst -> Prop.
Hypothesis K_refl : forall st, K st st.
Hypothesis K_trans : forall a b c, K a b -> K b c -> K a c.
Hypothesis K_cont : forall st o f, (forall b, o_col (f b) = o_col b) -> K st (modify st o f).
Hypothesis K_black : forall st o, K st (set2black st o).
Hypothesis K_link_gray : forall st o, K st (link_gray st o).
Hypothesis K_link_grayagain : forall st o, K st (link_grayagain st o).
Hypothesis K_link_allweak : forall st o, K st (link_allweak st o).
Hypothesis K_link_weak : forall st o, is_atomic (gcs st) = true -> K st (link_weak st o).
Hypothesis K_link_ephemeron : forall st o, is_propagate (gcs st) = false -> K st (link_ephemeron st o).
Hypothesis K_uvs : forall st u n, K st (set_uvs st u n).
Hypothesis K_tw : forall st l, K st (set_twups st l).
Hypothesis K_pop : forall st o g, gray st = o :: g -> K st (set2black (set_gray st g) o).

Lemma K_mark_meta : forall st m, K st (mark_meta st m).
Proof. intros st [t|]; cbn; [destruct (iswhite st t); [apply K_link_gray | apply K_refl] | apply K_refl]. Qed.
Lemma K_mark_obj : forall n st o, K st (mark_obj n st o).
Proof.
  induction n as [|n IH]; intros st o; cbn [mark_obj]; [apply K_refl|]. destruct (heap st o) as [ob|]; [|apply K_refl].
  assert (L : K st (set2black (mark_meta st (o_meta ob)) o)) by (apply (K_trans _ _ _ (K_mark_meta st (o_meta ob))), K_black).
  destruct (o_kind ob); try apply K_link_gray; try apply K_black.
  - destruct (o_vals ob) as [|[| |u] l]; try exact L. destruct (iswhite _ u); [apply (K_trans _ _ _ L), IH | exact L].
  - destruct (o_vals ob) as [|[| |u] l]; try exact L. destruct (iswhite _ u); [apply (K_trans _ _ _ L), IH | exact L].
Qed.
Lemma K_mark : forall st o, K st (mark st o).
Proof. intros. unfold mark. destruct (iswhite st o); [apply K_mark_obj | apply K_refl]. Qed.
Lemma K_mark_val : forall st v, K st (mark_val st v).
Proof. intros st [| |]; try apply K_refl. apply K_mark. Qed.
Lemma K_mark_key : forall st v, K st (mark_key st v).
Proof. intros st [| |]; try apply K_refl. apply K_mark. Qed.
Lemma K_fold : forall (A : Type) (f : gst -> A -> gst), (forall st a, K st (f st a)) -> forall l st, K st (fold_left f l st).
Proof. intros A f H. induction l as [|a l IH]; intros st; cbn; [apply K_refl | apply (K_trans _ _ _ (H st a)), IH]. Qed.
Lemma K_mark_vals : forall l st, K st (mark_vals st l).
Proof. intros l st. apply K_fold. apply K_mark_val. Qed.
Lemma K_iscleared : forall st o, K st (fst (iscleared st o)).
Proof. intros st [o|]; cbn; [|apply K_refl]. destruct (kind_of st o) as [[]|]; try apply K_refl. apply K_mark. Qed.
Lemma K_weakvalue_loop : forall h st hc, K st (fst (weakvalue_loop st h hc)).
Proof.
  induction h as [|[k v] h IH]; intros st hc; cbn [weakvalue_loop]; [apply K_refl|].
  destruct (isnil v); [apply IH|]. apply (K_trans _ (mark_key st k)); [apply K_mark_key|].
  destruct hc; [apply IH|]. pose proof (K_iscleared (mark_key st k) (vobj v)) as Q.
  destruct (iscleared (mark_key st k) (vobj v)) as [s c]. apply (K_trans _ _ _ Q), IH.
Qed.
Lemma K_eph_arr : forall l st mk, K st (fst (eph_arr st l mk)).
Proof.
  induction l as [|v l IH]; intros st mk; cbn [eph_arr]; [apply K_refl|]. destruct v; try apply IH.
  destruct (iswhite st o); [|apply IH]. apply (K_trans _ (mark st o)); [apply K_mark | apply IH].
Qed.
Lemma K_eph_hash : forall h st mk hc ww, K st (fst (fst (fst (eph_hash st h mk hc ww)))).
Proof.
  induction h as [|[k v] h IH]; intros st mk hc ww; cbn [eph_hash]; [apply K_refl|].
  destruct (isnil v); [apply IH|]. pose proof (K_iscleared st (kobj k)) as Q.
  destruct (iscleared st (kobj k)) as [s c]. apply (K_trans _ _ _ Q). destruct c; [apply IH|].
  destruct (valiswhite s v); [apply (K_trans _ (mark_val s v)); [apply K_mark_val | apply IH] | apply IH].
Qed.
Lemma K_sethash : forall st o h, K st (sethash st o h).
Proof. intros. apply K_cont. reflexivity. Qed.
Lemma K_traverseephemeron : forall st o ob, K st (fst (traverseephemeron st o ob)).
Proof.
  intros st o ob. unfold traverseephemeron. pose proof (K_eph_arr (o_vals ob) st false) as Q1.
  destruct (eph_arr st (o_vals ob) false) as [s1 m1]. pose proof (K_eph_hash (o_hash ob) s1 m1 false false) as Q2.
  destruct (eph_hash s1 (o_hash ob) m1 false false) as [[[s2 m2] hc] ww]. cbn [fst snd] in *.
  apply (K_trans _ _ _ Q1), (K_trans _ _ _ Q2), (K_trans _ _ _ (K_sethash s2 o (clean (o_hash ob)))).
  destruct (is_propagate _) eqn:P; [apply K_link_grayagain|]. destruct ww; [apply K_link_ephemeron, P|].
  destruct hc; [apply K_link_allweak | apply K_refl].
Qed.
Lemma K_traversetable : forall st o ob, K st (traversetable st o ob).
Proof.
  intros st o ob. unfold traversetable. apply (K_trans _ _ _ (K_mark_meta st (o_meta ob))).
  destruct (weakmode st ob) as [[] []].
  - apply K_link_allweak.
  - apply K_traverseephemeron.
  - unfold traverseweakvalue. pose proof (K_weakvalue_loop (o_hash ob) (mark_meta st (o_meta ob)) (negb (length (o_vals ob) =? 0))) as Q.
    destruct (weakvalue_loop (mark_meta st (o_meta ob)) (o_hash ob) (negb (length (o_vals ob) =? 0))) as [s hc]. cbn [fst] in Q.
    apply (K_trans _ _ _ Q), (K_trans _ _ _ (K_sethash s o (clean (o_hash ob)))).
    destruct (is_atomic _ && hc) eqn:P; [apply andb_true_iff in P; destruct P as [P _]; apply K_link_weak, P | apply K_link_grayagain].
  - unfold traversestrongtable. apply (K_trans _ _ _ (K_mark_vals (o_vals ob) _)).
    apply (K_trans _ (fold_left mark_entry (o_hash ob) (mark_vals (mark_meta st (o_meta ob)) (o_vals ob)))); [|apply K_sethash].
    apply K_fold. intros s [k v]. unfold mark_entry. cbn. destruct (isnil v); [apply K_refl|].
    apply (K_trans _ _ _ (K_mark_key s k)), K_mark_val.
Qed.
Lemma K_traverseLclosure : forall s o ob, K s (traverseLclosure s o ob).
Proof.
  intros s o ob. unfold traverseLclosure. apply (K_trans _ _ _ (K_mark_vals (o_vals ob) s)). apply K_fold.
  intros x u. unfold trav_upv. destruct (uvs x u) as [[]|]; [|apply K_mark_val | apply K_refl].
  destruct (is_atomic _); [apply K_mark_val | apply K_uvs].
Qed.
Lemma K_traverseproto : forall s o ob, K s (traverseproto s o ob).
Proof.
  intros s o ob. unfold traverseproto. apply (K_trans _ (match o_cache ob with
            | Some c => if iswhite s c then modify s o (fun b => with_cache b None) else s
            | None => s end)); [|apply K_mark_vals].
  destruct (o_cache ob) as [c|]; [|apply K_refl]. destruct (iswhite s c); [apply K_cont; reflexivity | apply K_refl].
Qed.
Lemma K_propagatemark : forall st, K st (propagatemark st).
Proof.
  intros st. unfold propagatemark. destruct (gray st) as [|o g] eqn:G; [apply K_refl|].
  assert (Q : K st (set2black (set_gray st g) o)) by (apply K_pop; assumption).
  destruct (heap _ o) as [ob|]; [|exact Q]. apply (K_trans _ _ _ Q).
  generalize (set2black (set_gray st g) o) as s. clear Q. intros s. destruct (o_kind ob); try apply K_refl.
  - apply K_traversetable.
  - apply K_traverseLclosure.
  - apply K_mark_vals.
  - apply K_traverseproto.
  - unfold traversethread.
    set (s1 := if is_propagate (gcs s) then link_grayagain s o else s).
    assert (Q1 : K s s1) by (unfold s1; destruct (is_propagate _); [apply K_link_grayagain | apply K_refl]).
    apply (K_trans _ _ _ Q1), (K_trans _ _ _ (K_mark_vals (firstn (o_top ob) (o_vals ob)) s1)).
    set (s2 := fold_left _ (o_open ob) _).
    assert (Q2 : K (mark_vals s1 (firstn (o_top ob) (o_vals ob))) s2) by (apply K_fold; intros; apply K_mark_val).
    apply (K_trans _ _ _ Q2). destruct (is_atomic _); [|apply K_refl].
    match goal with |- context [modify s2 o ?f] => apply (K_trans _ (modify s2 o f)); [apply K_cont; reflexivity|] end.
    destruct (existsb _ _); [apply K_refl|]. destruct (o_open ob); [apply K_refl | apply K_tw].
Qed.

End Keep2.

Definition gg (st : gst) : Prop := forall o ob, heap st o = Some ob -> o_col ob = Gray ->
  In o (gray st) \/ In o (grayagain st) \/ In o (allweak st) \/ In o (fixedgc st).

Definition ggs (st st' : gst) : Prop :=
  gcs st' = gcs st /\ (gcs st = GCSpropagate -> gg st /\ weak st = [] /\ ephemeron st = [] -> gg st' /\ weak st' = [] /\ ephemeron st' = []).

Lemma gg_setcol_in : forall st o c, gg st -> (c = Gray -> In o (gray st) \/ In o (grayagain st) \/ In o (allweak st) \/ In o (fixedgc st)) ->
  gg (setcol st o c).
Proof.
  intros st o c G I x xb H Cx. pose proof (modify_fields st o (fun ob => with_col ob c)) as F. fold (setcol st o c) in F. cbn zeta in F.
  destruct F as [_ [F1 [F2 [_ [F4 _]]]]]. pose proof (setcol_fields st o c) as F. decompose [and] F.
  rewrite F1, F2, F4. replace (fixedgc (setcol st o c)) with (fixedgc st) by congruence.
  unfold setcol in H. rewrite heap_modify in H. destruct (Nat.eqb_spec x o) as [->|].
  - destruct (heap st o); [|discriminate]. inversion H; subst xb. cbn in Cx. apply I, Cx.
  - apply (G x xb H Cx).
Qed.

Lemma ggs_propagatemark : forall st, ggs st (propagatemark st).
Proof.
  apply K_propagatemark.
  - intros st. split; [reflexivity | auto].
  - intros a b c [G1 H1] [G2 H2]. split; [congruence|]. intros E H. apply H2; [congruence | apply (H1 E H)].
  - intros st o f F. destruct (modify_all st o f) as [M1 [M2 [M3 [M4 [M5 [M6 [M7 [M8 [M9 M]]]]]]]]].
    destruct (modify_fields st o f) as [_ [F1 [F2 [F3 [F4 [F5 _]]]]]]. split; [exact M5|]. intros _ [G [W E]]. rewrite F3, F5. split; [|auto].
    intros x xb H Cx. rewrite F1, F2, F4, M9. rewrite heap_modify in H. destruct (Nat.eqb_spec x o) as [->|]; [|apply (G x xb H Cx)].
    destruct (heap st o) as [ob|] eqn:Ho; [|discriminate]. cbn in H. inversion H; subst xb. rewrite F in Cx. apply (G o ob Ho Cx).
  - intros st o. split; [apply setcol_fields|]. intros _ [G [W E]]. destruct (modify_fields st o (fun ob => with_col ob Black)) as [_ [_ [_ [F3 [_ [F5 _]]]]]].
    split; [|unfold set2black, setcol; rewrite F3, F5; auto]. apply gg_setcol_in; [exact G | discriminate].
  - intros st o. unfold link_gray. set (s := set_gray st (o :: gray st)). split; [rewrite (proj1 (proj2 (proj2 (proj2 (proj2 (setcol_fields s o Gray)))))); reflexivity|]. intros _ [G [W E]].
    destruct (modify_fields s o (fun ob => with_col ob Gray)) as [_ [_ [_ [F3 [_ [F5 _]]]]]].
    split; [|unfold setcol; rewrite F3, F5; auto]. apply gg_setcol_in; [|intros _; left; left; reflexivity].
    intros x xb H Cx. destruct (G x xb H Cx) as [Q | Q]; [left; right; exact Q | right; exact Q].
  - intros st o. unfold link_grayagain. set (s := set_grayagain st (o :: grayagain st)). split; [rewrite (proj1 (proj2 (proj2 (proj2 (proj2 (setcol_fields s o Gray)))))); reflexivity|]. intros _ [G [W E]].
    destruct (modify_fields s o (fun ob => with_col ob Gray)) as [_ [_ [_ [F3 [_ [F5 _]]]]]].
    split; [|unfold setcol; rewrite F3, F5; auto]. apply gg_setcol_in; [|intros _; right; left; left; reflexivity].
    intros x xb H Cx. destruct (G x xb H Cx) as [Q | [Q | Q]]; [left; exact Q | right; left; right; exact Q | right; right; exact Q].
  - intros st o. unfold link_allweak. set (s := set_allweak st (o :: allweak st)). split; [rewrite (proj1 (proj2 (proj2 (proj2 (proj2 (setcol_fields s o Gray)))))); reflexivity|]. intros _ [G [W E]].
    destruct (modify_fields s o (fun ob => with_col ob Gray)) as [_ [_ [_ [F3 [_ [F5 _]]]]]].
    split; [|unfold setcol; rewrite F3, F5; auto]. apply gg_setcol_in; [|intros _; right; right; left; left; reflexivity].
    intros x xb H Cx. destruct (G x xb H Cx) as [Q | [Q | [Q | Q]]]; [left; exact Q | right; left; exact Q | right; right; left; right; exact Q | right; right; right; exact Q].
  - intros st o A. unfold link_weak. set (s := set_weak st (o :: weak st)). split; [rewrite (proj1 (proj2 (proj2 (proj2 (proj2 (setcol_fields s o Gray)))))); reflexivity|].
    intros P. rewrite P in A. discriminate.
  - intros st o A. unfold link_ephemeron. set (s := set_ephemeron st (o :: ephemeron st)). split; [rewrite (proj1 (proj2 (proj2 (proj2 (proj2 (setcol_fields s o Gray)))))); reflexivity|].
    intros P. rewrite P in A. discriminate.
  - intros st u n. split; [reflexivity | auto].
  - intros st l. split; [reflexivity | auto].
  - intros st o g Gr. set (s := set_gray st g). split; [unfold set2black; rewrite (proj1 (proj2 (proj2 (proj2 (proj2 (setcol_fields s o Black)))))); reflexivity|]. intros _ [G [W E]].
    destruct (modify_fields s o (fun ob => with_col ob Black)) as [_ [F1 [F2 [F3 [F4 [F5 _]]]]]].
    split; [|unfold set2black, setcol; rewrite F3, F5; auto]. intros x xb H Cx. unfold set2black, setcol. rewrite F1, F2, F4.
    replace (fixedgc (modify s o (fun ob => with_col ob Black))) with (fixedgc st) by (rewrite modify_rest; reflexivity).
    rewrite heap_set2black in H. destruct (Nat.eqb_spec x o) as [->|n].
    + destruct (heap s o); [|discriminate]. inversion H; subst xb. discriminate.
    + cbn. destruct (G x xb H Cx) as [Q | Q]; [|right; exact Q]. rewrite Gr in Q. destruct Q as [Q | Q]; [congruence | left; exact Q].
Qed.

(** ** The state while marking *)

Record MarkX (ex : option id) (st : gst) : Prop := {
  mk_ci : CI MA [] ex st;
  mk_cw : allcw st;
  mk_gg : gg st;
  mk_weak : weak st = [];
  mk_eph : ephemeron st = [];
  mk_main : iswhite st (mainth st) = false;
  mk_fnz : forall o, In o (tobefnz st) -> iswhite st o = false
}.

Lemma allcw_mrel : forall st st', allcw st -> mrel st st' -> allcw st'.
Proof. intros st st' A M. apply (allcw_shr0 st st' A), shr0_shr, shr_mrel, M. Qed.

Lemma MarkX_mrel : forall ex st st', MarkX ex st -> mrel st st' -> MarkX ex st'.
Proof.
  intros ex st st' [C A G W E Mn F] M. pose proof (mrel_fields _ _ M) as Fl. decompose [and] Fl. clear Fl. constructor.
  - apply (CI_mrel _ _ _ _ _ C M).
  - apply (allcw_mrel _ _ A M).
  - intros o ob H' Cx. destruct (mrel_some_inv _ _ _ _ M H') as [a [Ha [Q1 Q2]]]. destruct (r_gray _ _ M) as [l [Gl _]].
    destruct Q2 as [Q2 | [_ [[Q2 _] | [_ [_ Q2]]]]]; [|congruence | left; exact Q2].
    destruct (G o a Ha) as [I | [I | [I | I]]]; [congruence | left; rewrite Gl; apply in_or_app; right; exact I | right; left; congruence | right; right; left; congruence | right; right; right; congruence].
  - congruence.
  - congruence.
  - replace (mainth st') with (mainth st) by congruence. apply (mrel_nw _ _ _ M Mn).
  - intros o I. apply (mrel_nw _ _ _ M), F. congruence.
Qed.

Lemma MarkX_ex : forall o st, MarkX None st -> MarkX (Some o) st.
Proof. intros o st []. constructor; try assumption. apply CI_ex. assumption. Qed.

(** Changing one object, which becomes the exception. *)
Lemma MarkX_modify : forall o f st, MarkX (Some o) st ->
  (forall ob, heap st o = Some ob -> o_kind (f ob) = o_kind ob /\ o_col (f ob) = o_col ob /\ kwf (f ob) /\
     (forall m, o_meta (f ob) = Some m -> kind_of st m = Some KTable) /\ (o_open (f ob) <> [] -> o_open ob <> [] \/ In o (twups st))) ->
  MarkX (Some o) (modify st o f).
Proof.
  intros o f st [C A G W E Mn F] Hf. destruct (heap st o) as [ob|] eqn:Ho.
  2: { assert (Q : modify st o f = st) by (unfold modify; rewrite Ho; reflexivity). rewrite Q. constructor; assumption. }
  destruct (Hf ob eq_refl) as [Hk [Hc [Hw [Hm Hopen]]]]. clear Hf. set (st' := modify st o f).
  pose proof (modify_all st o f) as FF. fold st' in FF. destruct FF as [F1 [F2 [F3 [F4 [F5 [F6 [F7 [F8 [F9 [F10 [F11 [F12 [F13 [F14 [F15 [F16 F17]]]]]]]]]]]]]]]].
  pose proof (modify_fields st o f) as FF. fold st' in FF. destruct FF as [_ [G1 [G2 [G3 [G4 [G5 _]]]]]].
  assert (Hh : forall x, heap st' x = if Nat.eqb x o then Some (f ob) else heap st x).
  { intros x. unfold st'. rewrite heap_modify, Ho. reflexivity. }
  assert (Wd : forall x, iswhite st' x = iswhite st x).
  { intros x. unfold iswhite. rewrite Hh. destruct (Nat.eqb_spec x o) as [->|]; [|reflexivity]. rewrite Ho, Hc. reflexivity. }
  assert (Kd : forall x, kind_of st' x = kind_of st x).
  { intros x. unfold kind_of. rewrite Hh. destruct (Nat.eqb_spec x o) as [->|]; [|reflexivity]. rewrite Ho, Hk. reflexivity. }
  destruct C as [T Tc Tw [N Gc Gt]]. constructor.
  - constructor.
    + destruct T as [T1 T2 T3]. constructor.
      * intros x xb H. rewrite Hh in H. destruct (Nat.eqb_spec x o) as [->|]; [inversion H; subst; exact Hw | apply (T1 x xb H)].
      * intros x xb m H Hx. rewrite Kd. rewrite Hh in H. destruct (Nat.eqb_spec x o) as [->|]; [inversion H; subst; apply Hm, Hx | apply (T2 x xb m H Hx)].
      * intros x xb H. rewrite F1. rewrite Hh in H. destruct (Nat.eqb_spec x o) as [->|]; [apply (T3 o ob Ho) | apply (T3 x xb H)].
    + intros x xb n H Hx. assert (n' : x <> o) by congruence. rewrite Hh in H. apply Nat.eqb_neq in n'. rewrite n' in H. rewrite Wd in Hx.
      rewrite F9, G1. unfold pend. rewrite G2. destruct (Tc x xb n H Hx) as [Q | [Q | [Q | Q]]]; [left; exact Q | right; left; exact Q | right; right; left; exact Q|].
      right; right; right.
      assert (Fu : full MA st xb -> full MA st' xb).
      { intros [P1 [P2 P3]]. split; [exact P1|]. split; [intros b R; rewrite Wd; apply P2, R|]. intros u I. specialize (P3 u I).
        unfold openok in *. rewrite F2. destruct (uvs st u) as [[]|]; [exact P3 | | exact Logic.I]. unfold valnw, valiswhite in *. destruct v; try exact P3. rewrite Wd. exact P3. }
      assert (Me : metanw st xb -> metanw st' xb) by (intros P b Q1; rewrite Wd; apply P, Q1).
      unfold done. rewrite G3, G4, G5, W, E. destruct Q as [Q | [[Q _] | [[Q Q1] | [Q _]]]].
      * left. apply Fu, Q.
      * rewrite W in Q. destruct Q.
      * right; right; left. split; [exact Q | apply Me, Q1].
      * rewrite E in Q. destruct Q.
    + intros x xb H Hx. rewrite F11. rewrite Hh in H. destruct (Nat.eqb_spec x o) as [->|].
      * inversion H; subst xb. destruct (Hopen Hx) as [Ox | Ox]; [|left; exact Ox]. destruct (Tw o ob Ho Ox) as [Q | [Q _]]; [left; exact Q | discriminate].
      * destruct (Tw x xb H Hx) as [Q | [Q _]]; [left; exact Q | discriminate].
    + constructor.
      * unfold glists in *. rewrite G1, G2, G3, G4, G5. exact N.
      * intros x I. unfold glists in I. rewrite G1, G2, G3, G4, G5 in I. destruct (Gc x I) as [xb [H [Cx Lx]]].
        rewrite Hh. destruct (Nat.eqb_spec x o) as [->|]; [|eauto]. exists (f ob). rewrite Ho in H. inversion H; subst xb.
        split; [reflexivity|]. split; [congruence|]. rewrite Hk. exact Lx.
      * intros x I. rewrite G3, G4, G5 in I. rewrite Kd. apply Gt, I.
  - intros x xb w H Cx. rewrite F4. rewrite Hh in H. destruct (Nat.eqb_spec x o) as [->|]; [|apply (A x xb w H Cx)].
    inversion H; subst xb. apply (A o ob w Ho). congruence.
  - intros x xb H Cx. rewrite G1, G2, G4, F9. rewrite Hh in H. destruct (Nat.eqb_spec x o) as [->|]; [|apply (G x xb H Cx)].
    inversion H; subst xb. apply (G o ob Ho). congruence.
  - congruence.
  - congruence.
  - rewrite F12, Wd. exact Mn.
  - intros x I. rewrite F8 in I. rewrite Wd. apply F, I.
Qed.

Lemma Mark_black : forall st o ob, MarkX None st -> fixstr st -> heap st o = Some ob -> o_col ob = Black -> full MA st ob.
Proof.
  intros st o ob M Fx H Cx. destruct (mk_ci _ _ M) as [T Tc Tw G].
  assert (B : isblack st o = true) by (unfold isblack; rewrite H, Cx; reflexivity).
  pose proof (black_notin [] st o G B) as N.
  destruct (Tc o ob ltac:(discriminate) H (black_nw st o B)) as [Q | [Q | [Q | Q]]].
  - pose proof (Fx o Q) as K. unfold kind_of in K. rewrite H in K. apply (str_full MA st o ob T H). congruence.
  - exfalso. apply N, in_glists. auto.
  - exfalso. apply N, in_glists. auto.
  - destruct Q as [Q | [[Q _] | [[Q _] | [Q _]]]]; [exact Q | exfalso; apply N, in_glists; auto 8 ..].
Qed.

Lemma Mark_allweak : forall st o ob, MarkX None st -> fixstr st -> heap st o = Some ob -> In o (allweak st) -> metanw st ob.
Proof.
  intros st o ob M Fx H I. destruct (mk_ci _ _ M) as [T Tc Tw G].
  assert (Ig : In o (glists [] st)) by (apply in_glists; auto 8).
  pose proof (g_nodup _ _ G) as N. unfold glists in N.
  assert (Ng : ~ In o (gray st) /\ ~ In o (grayagain st)).
  { rewrite app_assoc in N. apply NoDup_split in N. destruct N as [_ [_ N]].
    assert (J2 : In o (weak st ++ allweak st ++ ephemeron st ++ [])) by (apply in_or_app; right; apply in_or_app; left; exact I).
    split; intros J; apply (N o); try exact J2; apply in_or_app; [left | right]; exact J. }
  assert (NF : ~ In o (fixedgc st)).
  { intros J. pose proof (Fx o J) as K1. assert (K2 : kind_of st o = Some KTable).
    { apply (g_tab _ _ G). apply in_or_app; right. apply in_or_app; left. exact I. } congruence. }
  destruct (Tc o ob ltac:(discriminate) H (glist_nw [] st o G Ig)) as [Q | [Q | [Q | Q]]]; try (exfalso; tauto).
  destruct Q as [[_ [Q _]] | [[_ [Q _]] | [[_ Q] | [_ [Q _]]]]]; try exact Q. intros b Hb. apply Q. left. exact Hb.
Qed.

Lemma Mark_undo : forall o st, MarkX (Some o) st ->
  (forall ob, heap st o = Some ob -> o_col ob = Black -> full MA st ob) ->
  (forall ob, heap st o = Some ob -> In o (allweak st) -> metanw st ob) -> MarkX None st.
Proof.
  intros o st [C A G W E Mn F] B Al. constructor; try assumption. apply (CI_undo MA [] o st C).
  - intros ob H Hw. unfold iswhite in Hw. rewrite H in Hw. destruct (o_col ob) eqn:Cx; try discriminate.
    + destruct (G o ob H Cx) as [Q | [Q | [Q | Q]]]; auto. right; right; right. right; right; left. split; [exact Q | apply (Al ob H Q)].
    + right; right; right. left. apply (B ob H Cx).
  - intros. discriminate.
Qed.

(** The barriers. *)
Lemma barrier_mrel : forall st o v, typ st -> keepinvariant st = true ->
  mrel st (barrier st o v) /\ (isblack st o = true -> iswhite (barrier st o v) v = false).
Proof.
  intros st o v T Kp. unfold barrier. destruct (isblack st o) eqn:B; cbn [andb]; [|split; [apply mrel_refl | discriminate]].
  destruct (iswhite st v) eqn:Wv; [|split; [apply mrel_refl | auto]]. rewrite Kp.
  destruct (mark_obj_ok (nextid st) st v T Wv (cwhite_le_next st)) as [M Nw]. split; [exact M | intros _; exact Nw].
Qed.

Lemma MarkX_back : forall o ob v st, MarkX (Some o) st -> heap st o = Some ob -> linkable (o_kind ob) ->
  MarkX (Some o) (barrierback st o v) /\
  (barrierback st o v = st /\ (isblack st o = true -> iswhite st v = false) \/
   barrierback st o v = link_grayagain st o).
Proof.
  intros o ob v st M H L. unfold barrierback. destruct (isblack st o) eqn:B; cbn [andb]; [|split; [exact M | left; split; [reflexivity | discriminate]]].
  destruct (iswhite st v) eqn:Wv; [|split; [exact M | left; auto]]. split; [|right; reflexivity]. destruct M as [C A G W E Mn F].
  destruct (CI_link_grayagain MA [] st o ob C H B L) as [C' [S Wd]].
  pose proof (setcol_fields (set_grayagain st (o :: grayagain st)) o Gray) as Fl. fold (link_grayagain st o) in Fl. decompose [and] Fl. clear Fl.
  destruct (modify_fields (set_grayagain st (o :: grayagain st)) o (fun ob => with_col ob Gray)) as [_ [F1 [F2 [F3 [F4 [F5 _]]]]]].
  constructor.
  - exact C'.
  - apply (allcw_shr0 st _ A), shr0_shr, S.
  - unfold link_grayagain. apply gg_setcol_in; [|intros _; right; left; left; reflexivity].
    intros x xb Hx Cx. destruct (G x xb Hx Cx) as [Q | [Q | Q]]; [left; exact Q | right; left; right; exact Q | right; right; exact Q].
  - unfold link_grayagain, setcol. rewrite F3. exact W.
  - unfold link_grayagain, setcol. rewrite F5. exact E.
  - rewrite Wd. replace (mainth (link_grayagain st o)) with (mainth st) by (symmetry; assumption). exact Mn.
  - intros x I. rewrite Wd. apply F. replace (tobefnz st) with (tobefnz (link_grayagain st o)) by assumption. exact I.
Qed.

(** Changes outside the heap. *)
Lemma MarkX_uvs : forall ex st st', MarkX ex st -> heap st' = heap st -> nextid st' = nextid st -> cw st' = cw st -> fixedgc st' = fixedgc st ->
  gray st' = gray st -> grayagain st' = grayagain st -> weak st' = weak st -> allweak st' = allweak st -> ephemeron st' = ephemeron st ->
  incl (twups st) (twups st') -> mainth st' = mainth st -> incl (tobefnz st') (tobefnz st) ->
  (forall u, openok MA st u -> openok MA st' u) -> MarkX ex st'.
Proof.
  intros ex st st' [[T Tc Tw [N Gc Gt]] A G W E Mn F] H Hn Hc Hf G1 G2 G3 G4 G5 Ht Hm Hz Ho.
  assert (Wd : forall x, iswhite st' x = iswhite st x) by (intros x; unfold iswhite; rewrite H; reflexivity).
  assert (Kd : forall x, kind_of st' x = kind_of st x) by (intros x; unfold kind_of; rewrite H; reflexivity).
  constructor.
  - constructor.
    + destruct T as [T1 T2 T3]. constructor; rewrite ?H, ?Hn; auto. intros x xb m. rewrite Kd. apply T2.
    + intros x xb n. rewrite H, Wd, Hf, G1. unfold pend. rewrite G2. intros Hx Wx. destruct (Tc x xb n Hx Wx) as [Q | [Q | [Q | Q]]]; auto.
      right; right; right. unfold done. rewrite G3, G4, G5.
      assert (Me : metanw st xb -> metanw st' xb) by (intros P b Q1; rewrite Wd; apply P, Q1).
      destruct Q as [[P1 [P2 P3]] | [[Q [Q1 Q2]] | [[Q Q1] | [Q [Q1 Q2]]]]].
      * left. split; [exact P1|]. split; [intros b R; rewrite Wd; apply P2, R|]. intros u I. apply Ho, P3, I.
      * right; left. split; [exact Q|]. split; [apply Me, Q1|]. intros b v I. rewrite Wd. apply (Q2 b v I).
      * right; right; left. split; [exact Q | apply Me, Q1].
      * right; right; right. split; [exact Q|]. split; [apply Me, Q1|]. intros b I. rewrite Wd. apply (Q2 b I).
    + intros x xb. rewrite H. intros Hx Ox. destruct (Tw x xb Hx Ox) as [Q | [Q _]]; [left; apply Ht, Q | discriminate].
    + constructor; unfold glists in *; rewrite ?G1, ?G2, ?G3, ?G4, ?G5, ?H; auto. intros x I. rewrite Kd. apply Gt, I.
  - intros x xb w. rewrite H, Hc. apply A.
  - intros x xb. rewrite H, G1, G2, G4, Hf. apply G.
  - congruence.
  - congruence.
  - rewrite Wd, Hm. exact Mn.
  - intros x I. rewrite Wd. apply F, Hz, I.
Qed.
