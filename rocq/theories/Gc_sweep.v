(** The lists of all objects, and the sweep. *)
From Coq Require Import ZArith List Bool Arith Lia Permutation.
From Verif Require Import Base Gc_model Gc_spec Gc_facts Gc_tri Gc_trav Gc_prop Gc_atomic Gc_fin Gc_core Gc_mark.
Import ListNotations.
Local Open Scope nat_scope.

(** ** Every object is in exactly one list *)

Definition objs (st : gst) : list id := allgc st ++ finobj st ++ tobefnz st ++ fixedgc st.

Record Lists (st : gst) : Prop := {
  l_nodup : NoDup (objs st);
  l_heap : forall o, In o (objs st) <-> heap st o <> None;
  l_fin : forall o ob, heap st o = Some ob -> o_fin ob = true <-> In o (finobj st ++ tobefnz st)
}.

(** The same objects, on the same lists. *)
Record shape (st st' : gst) : Prop := {
  h_none : forall o, heap st' o = None <-> heap st o = None;
  h_fin : forall o a b, heap st o = Some a -> heap st' o = Some b -> o_fin b = o_fin a;
  h_fld : allgc st' = allgc st /\ finobj st' = finobj st /\ tobefnz st' = tobefnz st /\ fixedgc st' = fixedgc st
}.

Lemma shape_refl : forall st, shape st st.
Proof. intros st. constructor; try reflexivity; [|auto]. intros; congruence. Qed.

Lemma shape_trans : forall a b c, shape a b -> shape b c -> shape a c.
Proof.
  intros a b c [N1 F1 L1] [N2 F2 L2]. constructor.
  - intros o. rewrite N2. apply N1.
  - intros o x z Hx Hz. destruct (heap b o) as [y|] eqn:Hy; [|apply N2 in Hy; congruence]. rewrite (F2 o y z Hy Hz). apply (F1 o x y Hx Hy).
  - destruct L1 as [? [? [? ?]]], L2 as [? [? [? ?]]]. repeat split; congruence.
Qed.

Lemma Lists_shape : forall st st', Lists st -> shape st st' -> Lists st'.
Proof.
  intros st st' [N H F] [S1 S2 [E1 [E2 [E3 E4]]]]. assert (E : objs st' = objs st) by (unfold objs; congruence). constructor.
  - rewrite E. exact N.
  - intros o. rewrite E, H. specialize (S1 o). tauto.
  - intros o b Hb. rewrite E2, E3. destruct (heap st o) as [a|] eqn:Ha; [|apply S1 in Ha; congruence]. rewrite (S2 o a b Ha Hb). apply (F o a Ha).
Qed.

Lemma shape_modify : forall st o f, (forall ob, heap st o = Some ob -> o_fin (f ob) = o_fin ob) -> shape st (modify st o f).
Proof.
  intros st o f Hf. destruct (modify_all st o f) as [F1 [F2 [F3 [F4 [F5 [F6 [F7 [F8 [F9 _]]]]]]]]]. constructor.
  - intros x. rewrite heap_modify. destruct (Nat.eqb_spec x o) as [->|]; [|reflexivity]. destruct (heap st o); cbn; split; congruence.
  - intros x a b Ha Hb. rewrite heap_modify in Hb. destruct (Nat.eqb_spec x o) as [->|]; [|congruence]. rewrite Ha in Hb. cbn in Hb. inversion Hb. apply Hf, Ha.
  - auto.
Qed.

Lemma shape_same : forall st st', heap st' = heap st -> allgc st' = allgc st -> finobj st' = finobj st -> tobefnz st' = tobefnz st -> fixedgc st' = fixedgc st -> shape st st'.
Proof. intros st st' H A B C D. constructor; rewrite ?H; [reflexivity | intros; congruence | auto]. Qed.

Lemma shape_setcol : forall st o c, shape st (setcol st o c).
Proof. intros. apply shape_modify. reflexivity. Qed.

Lemma shape_shr : forall st st', shr st st' -> shape st st'.
Proof.
  intros st st' S. pose proof (sh_fld _ _ S) as F. decompose [and] F. constructor.
  - intros o. split; [|apply (sh_none _ _ S)]. intros H'. destruct (heap st o) as [a|] eqn:Ha; [|reflexivity].
    destruct (sh_some _ _ S o a Ha) as [b [Hb _]]. congruence.
  - intros o a b Ha Hb. destruct (sh_some _ _ S o a Ha) as [b' [Hb' Q]]. rewrite Hb in Hb'. inversion Hb'; subst. apply (os_fin _ _ Q).
  - auto.
Qed.

(** ** Sweeping a list *)

(** What is left of the list, and what happened to the objects. *)
Record swept (st st' : gst) (l kept rest : list id) : Prop := {
  w_rest : frest st st' /\ nextuv st' = nextuv st;
  w_core : Core st';
  w_out : forall x, ~ In x l -> heap st' x = heap st x;
  w_sub : NoDup (kept ++ rest) /\ incl (kept ++ rest) l;
  w_keep : forall x, In x kept -> exists ob, heap st x = Some ob /\ isdead st x = false /\ heap st' x = Some (with_col ob (White (cw st)));
  w_tail : forall x, In x rest -> heap st' x = heap st x;
  w_free : forall x, In x l -> ~ In x (kept ++ rest) -> isdead st x = true /\ heap st' x = None
}.

Lemma frest_refl : forall st, frest st st.
Proof. intros []. reflexivity. Qed.
Lemma frest_trans : forall a b c, frest a b -> frest b c -> frest a c.
Proof. unfold frest. intros a b c H1 H2. rewrite <- H1. rewrite <- H2. destruct c; reflexivity. Qed.
Lemma frest_setcol : forall st o c, frest st (setcol st o c).
Proof. intros st o c. unfold frest, setcol. rewrite modify_rest. destruct st; reflexivity. Qed.

Lemma freeobj_dead : forall st o, isdead st o = true ->
  (forall x, heap (freeobj st o) x = if Nat.eqb x o then None else heap st x) /\ nextuv (freeobj st o) = nextuv st /\ frest st (freeobj st o).
Proof.
  intros st o D. unfold isdead in D. destruct (heap st o) as [ob|] eqn:H; [|discriminate].
  destruct (freeobj_spec st o ob H) as [F [N [Hh _]]]. auto.
Qed.

Lemma swept_nil : forall st l, Core st -> NoDup l -> swept st st l [] l.
Proof.
  intros st l C N. constructor; cbn; auto.
  - split; [apply frest_refl | reflexivity].
  - split; [exact N | apply incl_refl].
  - intros x [].
  - intros x I J. contradiction.
Qed.

Lemma isdead_frame : forall st st' x, cw st' = cw st -> heap st' x = heap st x -> isdead st' x = isdead st x.
Proof. intros st st' x C H. unfold isdead. rewrite C, H. reflexivity. Qed.

Lemma swept_free : forall st o l st' kept rest, Core st -> isdead st o = true -> ~ In o l ->
  swept (freeobj st o) st' l kept rest -> swept st st' (o :: l) kept rest.
Proof.
  intros st o l st' kept rest C D Ni [[R NV] Co O [N Sub] Kp T Fr].
  destruct (freeobj_dead st o D) as [Hh [FNV F0]].
  destruct (frest_fields _ _ F0) as [_ [Hc _]].
  assert (Nk : ~ In o (kept ++ rest)) by (intros I; apply Ni, Sub, I).
  constructor.
  - split; [apply (frest_trans _ _ _ F0 R) | rewrite NV; exact FNV].
  - exact Co.
  - intros x I. rewrite O by (intros J; apply I; right; exact J). rewrite Hh. destruct (Nat.eqb_spec x o) as [->|]; [exfalso; apply I; left; reflexivity | reflexivity].
  - split; [exact N | intros x I; right; apply Sub, I].
  - intros x I. destruct (Kp x I) as [ob [H1 [H2 H3]]]. rewrite Hh in H1. destruct (Nat.eqb_spec x o) as [->|n]; [discriminate|]. exists ob.
    split; [exact H1|]. split; [|rewrite <- Hc; exact H3]. rewrite <- H2. symmetry. apply isdead_frame; [exact Hc|]. rewrite Hh. apply Nat.eqb_neq in n. rewrite n. reflexivity.
  - intros x I. rewrite (T x I), Hh. destruct (Nat.eqb_spec x o) as [->|]; [|reflexivity]. exfalso. apply Nk, in_or_app; auto.
  - intros x [<- | I] J.
    + split; [exact D|]. rewrite O by exact Ni. rewrite Hh, Nat.eqb_refl. reflexivity.
    + destruct (Fr x I J) as [H1 H2]. split; [|exact H2]. rewrite <- H1. symmetry. apply isdead_frame; [exact Hc|].
      rewrite Hh. destruct (Nat.eqb_spec x o) as [->|]; [contradiction | reflexivity].
Qed.

Lemma swept_keep : forall st o l st' kept rest, isdead st o = false -> heap st o <> None -> ~ In o l ->
  swept (makewhite st o) st' l kept rest -> swept st st' (o :: l) (o :: kept) rest.
Proof.
  intros st o l st' kept rest D Hn Ni [[R NV] Co O [N Sub] Kp T Fr].
  assert (F0 : frest st (makewhite st o)) by apply frest_setcol.
  destruct (frest_fields _ _ F0) as [_ [Hc _]].
  assert (Hh : forall x, x <> o -> heap (makewhite st o) x = heap st x).
  { intros x n. unfold makewhite, setcol. rewrite heap_modify. apply Nat.eqb_neq in n. rewrite n. reflexivity. }
  assert (Nk : ~ In o (kept ++ rest)) by (intros I; apply Ni, Sub, I).
  constructor.
  - split; [apply (frest_trans _ _ _ F0 R) | rewrite NV; apply setcol_fields].
  - exact Co.
  - intros x I. rewrite O by (intros J; apply I; right; exact J). apply Hh. intros ->. apply I. left. reflexivity.
  - split; [cbn; constructor; assumption | intros x [<- | I]; [left; reflexivity | right; apply Sub, I]].
  - intros x [<- | I].
    + destruct (heap st o) as [ob|] eqn:Ho; [|congruence]. exists ob. split; [reflexivity|]. split; [exact D|]. rewrite O by exact Ni.
      unfold makewhite, setcol. rewrite (heap_modify_eq st o (fun b => with_col b (White (cw st))) ob Ho). reflexivity.
    + assert (n : x <> o) by (intros ->; apply Nk, in_or_app; auto). destruct (Kp x I) as [ob [H1 [H2 H3]]]. exists ob. rewrite (Hh x n) in H1.
      split; [exact H1|]. split; [|rewrite <- Hc; exact H3]. rewrite <- H2. symmetry. apply isdead_frame; [exact Hc | apply Hh, n].
  - intros x I. rewrite (T x I). apply Hh. intros ->. apply Nk, in_or_app; auto.
  - intros x [<- | I] J; [exfalso; apply J; left; reflexivity|].
    assert (n : x <> o) by (intros ->; contradiction).
    destruct (Fr x I) as [H1 H2]; [intros Q; apply J; right; exact Q|]. split; [|exact H2]. rewrite <- H1. symmetry. apply isdead_frame; [exact Hc | apply Hh, n].
Qed.

Lemma swept_whiten : forall st o l, Core st -> NoDup (o :: l) -> isdead st o = false -> heap st o <> None -> ~ In o (fixedgc st) ->
  swept st (makewhite st o) (o :: l) [o] l.
Proof.
  intros st o l C N D H F. inversion N; subst. apply swept_keep; try assumption. apply swept_nil; [|assumption].
  apply Core_makewhite; [exact C | left; split; assumption | exact F].
Qed.

Definition sweepable (st : gst) (l : list id) : Prop := forall o, In o l -> heap st o <> None /\ ~ In o (fixedgc st).

Lemma sweeplist_ok : forall l n st, Core st -> NoDup l -> sweepable st l ->
  let r := sweeplist n st l in swept st (fst (fst r)) l (snd (fst r)) (snd r).
Proof.
  induction l as [|o l IH]; intros n st C N P; cbn zeta.
  - destruct n; cbn; apply swept_nil; assumption.
  - destruct n as [|n]; cbn [sweeplist]; [cbn; apply swept_nil; assumption|]. inversion N as [|? ? Ni N']; subst.
    destruct (P o (or_introl eq_refl)) as [Po Fo].
    destruct (isdead st o) eqn:D.
    + apply swept_free; try assumption. destruct (freeobj_dead st o D) as [Hh [FNV F0]]. destruct (frest_fields _ _ F0) as [_ [_ [_ [_ [_ [_ [Ff _]]]]]]].
      apply IH; [apply Core_free; assumption | exact N'|]. intros x I. destruct (P x (or_intror I)) as [Q1 Q2]. rewrite Ff, Hh.
      destruct (Nat.eqb_spec x o) as [->|]; [contradiction|]. split; assumption.
    + assert (F0 : frest st (makewhite st o)) by apply frest_setcol. destruct (frest_fields _ _ F0) as [_ [_ [_ [_ [_ [_ [Ff _]]]]]]].
      specialize (IH n (makewhite st o) (Core_makewhite st o C (or_introl (conj Po D)) Fo) N').
      destruct (sweeplist n (makewhite st o) l) as [[s k] r]. cbn in *. apply swept_keep; try assumption. apply IH.
      intros x I. destruct (P x (or_intror I)) as [Q1 Q2]. rewrite Ff. split; [|exact Q2].
      unfold makewhite, setcol. rewrite heap_modify. destruct (Nat.eqb_spec x o) as [->|]; [contradiction | exact Q1].
Qed.

Lemma sweeptolive_ok : forall l st, Core st -> NoDup l -> sweepable st l ->
  let r := sweeptolive st l in swept st (fst (fst r)) l (snd (fst r)) (snd r) /\ (snd (fst r) = [] -> snd r = []).
Proof.
  induction l as [|o l IH]; intros st C N P; cbn zeta.
  - cbn. split; [apply swept_nil; assumption | auto].
  - cbn [sweeptolive]. inversion N as [|? ? Ni N']; subst. destruct (P o (or_introl eq_refl)) as [Po Fo].
    destruct (isdead st o) eqn:D.
    + destruct (freeobj_dead st o D) as [Hh [FNV F0]]. destruct (frest_fields _ _ F0) as [_ [_ [_ [_ [_ [_ [Ff _]]]]]]].
      destruct (IH (freeobj st o)) as [Q1 Q2]; [apply Core_free; assumption | exact N' | | split; [apply swept_free; assumption | exact Q2]].
      intros x I. destruct (P x (or_intror I)) as [Q1 Q2]. rewrite Ff, Hh. destruct (Nat.eqb_spec x o) as [->|]; [contradiction|]. split; assumption.
    + cbn. split; [apply swept_whiten; assumption | discriminate].
Qed.

(** ** Positions in a list *)

Lemma split_after_app : forall o l, fst (split_after o l) ++ snd (split_after o l) = l.
Proof.
  intros o. induction l as [|x l IH]; cbn; [reflexivity|]. destruct (Nat.eqb x o); [reflexivity|].
  destruct (split_after o l) as [a b]. cbn in *. rewrite IH. reflexivity.
Qed.
Lemma split_ptr_app : forall p l, fst (split_ptr p l) ++ snd (split_ptr p l) = l.
Proof. intros [|o] l; [reflexivity | apply split_after_app]. Qed.

Lemma split_after_last : forall o a b, ~ In o a -> split_after o (a ++ o :: b) = (a ++ [o], b).
Proof.
  intros o a b. induction a as [|x a IH]; cbn; intros N; [rewrite Nat.eqb_refl; reflexivity|].
  destruct (Nat.eqb_spec x o) as [->|]; [exfalso; apply N; left; reflexivity|]. rewrite IH by (intros I; apply N; right; exact I). reflexivity.
Qed.

Lemma split_after_swap : forall o l r, snd (split_after o l) <> [] -> split_after o (fst (split_after o l) ++ r) = (fst (split_after o l), r).
Proof.
  intros o. induction l as [|x l IH]; intros r N; cbn in *; [congruence|]. destruct (Nat.eqb_spec x o) as [->|n].
  - cbn. rewrite Nat.eqb_refl. reflexivity.
  - destruct (split_after o l) as [a b] eqn:E. cbn in *. apply Nat.eqb_neq in n. rewrite n. rewrite IH by exact N. reflexivity.
Qed.

(** Where the sweep stands after a step. *)
Lemma next_ptr_split : forall p l kept rest q, NoDup (fst (split_ptr p l) ++ kept ++ rest) -> snd (split_ptr p l) <> [] ->
  next_ptr p kept rest = Some q -> snd (split_ptr q (fst (split_ptr p l) ++ kept ++ rest)) = rest.
Proof.
  intros p l kept rest q N Ns H. unfold next_ptr in H. destruct rest as [|r0 rest]; [discriminate|]. remember (r0 :: rest) as r eqn:Er. clear Er r0 rest.
  destruct (rev kept) as [|o k] eqn:E.
  - inversion H; subst q. apply (f_equal (@rev id)) in E. rewrite rev_involutive in E. cbn in E. subst kept. cbn.
    destruct p as [|o]; cbn in *; [reflexivity|]. rewrite split_after_swap by exact Ns. reflexivity.
  - inversion H; subst q. apply (f_equal (@rev id)) in E. rewrite rev_involutive in E. cbn in E. subst kept. cbn.
    replace (fst (split_ptr p l) ++ (rev k ++ [o]) ++ r) with ((fst (split_ptr p l) ++ rev k) ++ o :: r) in * by (rewrite <- !app_assoc; reflexivity).
    rewrite split_after_last; [reflexivity|]. apply NoDup_remove_2 in N. intros I. apply N, in_or_app. auto.
Qed.

(** ** The state while sweeping *)

Definition behind (st : gst) (l : list id) : list id := match sweepgc st with Some p => snd (split_ptr p l) | None => [] end.

Definition unswept (st : gst) : list id :=
  match gcs st with
  | GCSswpallgc => behind st (allgc st) ++ finobj st ++ tobefnz st
  | GCSswpfinobj => behind st (finobj st) ++ tobefnz st
  | GCSswptobefnz => behind st (tobefnz st)
  | _ => []
  end.

Definition Swp (st : gst) : Prop := forall o ob, heap st o = Some ob ->
  In o (unswept st) \/ In o (fixedgc st) \/ o_col ob = White (cw st).

(** The list that is swept replaced by what the sweep left of it. *)
Lemma Lists_swept : forall st st' l kept rest a f t, Lists st -> swept st st' l kept rest ->
  (forall x, In x (a ++ f ++ t ++ fixedgc st) <-> In x (objs st) /\ (In x l -> In x (kept ++ rest))) ->
  NoDup (a ++ f ++ t ++ fixedgc st) -> incl l (objs st) ->
  (forall x, In x (f ++ t) <-> In x (finobj st ++ tobefnz st) /\ (In x l -> In x (kept ++ rest))) ->
  Lists (set_objs st' a f t).
Proof.
  intros st st' l kept rest a f t [N H F] [[R NV] Co O [Nk Sub] Kp T Fr] Hin N' Il Hft.
  destruct (frest_fields _ _ R) as [_ [Hc [_ [_ [_ [_ [Ff _]]]]]]].
  assert (Dom : forall x, heap st' x <> None <-> heap st x <> None /\ (In x l -> In x (kept ++ rest))).
  { intros x. destruct (in_dec Nat.eq_dec x l) as [I | I].
    - destruct (in_dec Nat.eq_dec x (kept ++ rest)) as [J | J].
      + apply in_app_or in J. destruct J as [J | J].
        * destruct (Kp x J) as [ob [H1 [_ H3]]]. rewrite H1, H3. split; [intros _; split; [discriminate|] | discriminate]. intros _. apply in_or_app. auto.
        * rewrite (T x J). split; [|tauto]. intros Q. split; [exact Q|]. intros _. apply in_or_app. auto.
      + destruct (Fr x I J) as [_ E]. rewrite E. split; [congruence|]. intros [_ Q]. elim (J (Q I)).
    - rewrite (O x I). tauto. }
  constructor; unfold objs; cbn.
  - rewrite Ff. exact N'.
  - intros x. rewrite Ff, Hin, H, Dom. reflexivity.
  - intros x xb Hx. rewrite Hft.
    assert (P : heap st' x <> None) by congruence. apply Dom in P. destruct P as [P Q].
    destruct (heap st x) as [yb|] eqn:Hy; [|congruence].
    assert (E : o_fin xb = o_fin yb).
    { destruct (in_dec Nat.eq_dec x l) as [I | I]; [|rewrite (O x I), Hy in Hx; congruence].
      specialize (Q I). apply in_app_or in Q. destruct Q as [Q | Q]; [|rewrite (T x Q), Hy in Hx; congruence].
      destruct (Kp x Q) as [ob [H1 [_ H3]]]. rewrite Hx in H3. rewrite Hy in H1. inversion H1; subst. inversion H3. reflexivity. }
    rewrite E, (F x yb Hy). tauto.
Qed.

Lemma swept_col : forall st st' l kept rest x xb, swept st st' l kept rest -> heap st' x = Some xb -> In x l -> In x rest \/ o_col xb = White (cw st).
Proof.
  intros st st' l kept rest x xb [[R NV] Co O [Nk Sub] Kp T Fr] Hx I. destruct (in_dec Nat.eq_dec x (kept ++ rest)) as [J | J].
  - apply in_app_or in J. destruct J as [J | J]; [right | left; exact J]. destruct (Kp x J) as [ob [_ [_ H3]]]. rewrite Hx in H3. inversion H3. reflexivity.
  - destruct (Fr x I J) as [_ E]. congruence.
Qed.

(** entersweep, whatever the colours. *)
Lemma NoDup_objs : forall st, Lists st -> forall x,
  (In x (allgc st) -> ~ In x (finobj st) /\ ~ In x (tobefnz st) /\ ~ In x (fixedgc st)) /\
  (In x (finobj st) -> ~ In x (allgc st) /\ ~ In x (tobefnz st) /\ ~ In x (fixedgc st)) /\
  (In x (tobefnz st) -> ~ In x (allgc st) /\ ~ In x (finobj st) /\ ~ In x (fixedgc st)).
Proof.
  intros st [N _ _] x. unfold objs in N. apply NoDup_split in N. destruct N as [_ [N D1]]. apply NoDup_split in N. destruct N as [_ [N D2]].
  apply NoDup_split in N. destruct N as [_ [_ D3]]. specialize (D1 x). specialize (D2 x). specialize (D3 x). rewrite !in_app_iff in *. tauto.
Qed.

Lemma in_objs : forall st x, In x (objs st) <-> In x (allgc st) \/ In x (finobj st) \/ In x (tobefnz st) \/ In x (fixedgc st).
Proof. intros. unfold objs. rewrite !in_app_iff. reflexivity. Qed.

Lemma sweepable_allgc : forall st l, Lists st -> incl l (allgc st) -> sweepable st l.
Proof.
  intros st l L I o J. apply I in J. split; [apply (l_heap _ L), in_objs; auto | pose proof (NoDup_objs st L o); tauto].
Qed.
Lemma sweepable_finobj : forall st l, Lists st -> incl l (finobj st) -> sweepable st l.
Proof.
  intros st l L I o J. apply I in J. split; [apply (l_heap _ L), in_objs; auto | pose proof (NoDup_objs st L o); tauto].
Qed.
Lemma sweepable_tobefnz : forall st l, Lists st -> incl l (tobefnz st) -> sweepable st l.
Proof.
  intros st l L I o J. apply I in J. split; [apply (l_heap _ L), in_objs; auto | pose proof (NoDup_objs st L o); tauto].
Qed.

Lemma NoDup_lists : forall st, Lists st -> NoDup (allgc st) /\ NoDup (finobj st) /\ NoDup (tobefnz st).
Proof.
  intros st [N _ _]. unfold objs in N. apply NoDup_split in N. destruct N as [N1 [N _]]. apply NoDup_split in N. destruct N as [N2 [N _]].
  apply NoDup_split in N. destruct N as [N3 _]. auto.
Qed.

Lemma NoDup_mid : forall (A : Type) (a b c b' : list A), NoDup (a ++ b ++ c) -> NoDup b' -> incl b' b -> NoDup (a ++ b' ++ c).
Proof.
  intros A a b c b' N Nb I. apply NoDup_split in N. destruct N as [Na [N D1]]. apply NoDup_split in N. destruct N as [_ [Nc D2]].
  apply NoDup_app; [exact Na | |].
  - apply NoDup_app; [exact Nb | exact Nc|]. intros x J1 J2. apply (D2 x (I x J1) J2).
  - intros x J1 J2. apply (D1 x J1). apply in_app_or in J2. apply in_or_app. destruct J2 as [J2 | J2]; [left; apply I, J2 | right; exact J2].
Qed.

(** A sweep of a suffix of one of the three lists. *)
Lemma Lists_sweep_allgc : forall st st' pre suf kept rest, Lists st -> allgc st = pre ++ suf -> swept st st' suf kept rest ->
  Lists (set_objs st' (pre ++ kept ++ rest) (finobj st) (tobefnz st)).
Proof.
  intros st st' pre suf kept rest L E S. destruct (w_sub _ _ _ _ _ S) as [Nk Sub]. pose proof (l_nodup _ L) as N. pose proof (NoDup_lists st L) as [Na [Nf Nt]].
  assert (Ds : forall x, In x suf -> ~ In x pre) by (rewrite E in Na; apply NoDup_split in Na; destruct Na as [_ [_ D]]; intros x I J; apply (D x J I)).
  assert (Da : forall x, In x suf -> In x (allgc st)) by (intros x I; rewrite E; apply in_or_app; auto).
  apply (Lists_swept st st' suf kept rest _ _ _ L S).
  - intros x. pose proof (NoDup_objs st L x) as D. pose proof (Ds x). pose proof (Da x). pose proof (Sub x).
    rewrite in_objs. rewrite E, !in_app_iff in *. tauto.
  - unfold objs in N. rewrite E in N. rewrite <- app_assoc in N. rewrite <- !app_assoc. rewrite app_assoc with (l := kept).
    apply (NoDup_mid _ pre suf); [exact N | exact Nk | exact Sub].
  - intros x I. apply in_objs. left. apply Da, I.
  - intros x. pose proof (NoDup_objs st L x) as D. pose proof (Da x). rewrite !in_app_iff in *. tauto.
Qed.

Lemma Lists_sweep_finobj : forall st st' pre suf kept rest, Lists st -> finobj st = pre ++ suf -> swept st st' suf kept rest ->
  Lists (set_objs st' (allgc st) (pre ++ kept ++ rest) (tobefnz st)).
Proof.
  intros st st' pre suf kept rest L E S. destruct (w_sub _ _ _ _ _ S) as [Nk Sub]. pose proof (l_nodup _ L) as N. pose proof (NoDup_lists st L) as [Na [Nf Nt]].
  assert (Ds : forall x, In x suf -> ~ In x pre) by (rewrite E in Nf; apply NoDup_split in Nf; destruct Nf as [_ [_ D]]; intros x I J; apply (D x J I)).
  assert (Da : forall x, In x suf -> In x (finobj st)) by (intros x I; rewrite E; apply in_or_app; auto).
  apply (Lists_swept st st' suf kept rest _ _ _ L S).
  - intros x. pose proof (NoDup_objs st L x) as D. pose proof (Ds x). pose proof (Da x). pose proof (Sub x).
    rewrite in_objs. rewrite E, !in_app_iff in *. tauto.
  - unfold objs in N. rewrite E in N. rewrite <- app_assoc in N. rewrite app_assoc in N. rewrite <- !app_assoc. rewrite app_assoc with (l := kept).
    rewrite app_assoc with (l := allgc st).
    apply (NoDup_mid _ (allgc st ++ pre) suf); [exact N | exact Nk | exact Sub].
  - intros x I. apply in_objs. right; left. apply Da, I.
  - intros x. pose proof (NoDup_objs st L x) as D. pose proof (Ds x). pose proof (Da x). pose proof (Sub x). rewrite E, !in_app_iff in *. tauto.
Qed.

Lemma Lists_sweep_tobefnz : forall st st' pre suf kept rest, Lists st -> tobefnz st = pre ++ suf -> swept st st' suf kept rest ->
  Lists (set_objs st' (allgc st) (finobj st) (pre ++ kept ++ rest)).
Proof.
  intros st st' pre suf kept rest L E S. destruct (w_sub _ _ _ _ _ S) as [Nk Sub]. pose proof (l_nodup _ L) as N. pose proof (NoDup_lists st L) as [Na [Nf Nt]].
  assert (Ds : forall x, In x suf -> ~ In x pre) by (rewrite E in Nt; apply NoDup_split in Nt; destruct Nt as [_ [_ D]]; intros x I J; apply (D x J I)).
  assert (Da : forall x, In x suf -> In x (tobefnz st)) by (intros x I; rewrite E; apply in_or_app; auto).
  apply (Lists_swept st st' suf kept rest _ _ _ L S).
  - intros x. pose proof (NoDup_objs st L x) as D. pose proof (Ds x). pose proof (Da x). pose proof (Sub x).
    rewrite in_objs. rewrite E, !in_app_iff in *. tauto.
  - unfold objs in N. rewrite E in N. rewrite <- app_assoc in N. rewrite <- !app_assoc. rewrite app_assoc with (l := kept).
    replace (allgc st ++ finobj st ++ pre ++ suf ++ fixedgc st) with ((allgc st ++ finobj st ++ pre) ++ suf ++ fixedgc st) in N by (rewrite <- !app_assoc; reflexivity).
    replace (allgc st ++ finobj st ++ pre ++ (kept ++ rest) ++ fixedgc st) with ((allgc st ++ finobj st ++ pre) ++ (kept ++ rest) ++ fixedgc st) by (rewrite <- !app_assoc; reflexivity).
    apply (NoDup_mid _ (allgc st ++ finobj st ++ pre) suf); [exact N | exact Nk | exact Sub].
  - intros x I. apply in_objs. right; right; left. apply Da, I.
  - intros x. pose proof (NoDup_objs st L x) as D. pose proof (Ds x). pose proof (Da x). pose proof (Sub x). rewrite E, !in_app_iff in *. tauto.
Qed.

(** Core does not look at the lists of objects, except 'tobefnz'. *)
Lemma Core_objs : forall st a f t p, Core st -> (forall x, In x t -> In x (tobefnz st)) -> Core (set_sweepgc (set_objs st a f t) p).
Proof.
  intros st a f t p C H. apply (Core_same st _ C); try reflexivity.
  - apply (q_cur _ C).
  - intros o R. apply (q_root _ C). destruct R; [apply r_main | apply r_cur | apply r_reg | apply r_mt | apply r_fin, H | apply r_cache | apply r_fixed | apply r_memerr]; assumption.
Qed.

Lemma tobefnz_kept : forall st st' pre suf kept rest, Core st -> tobefnz st = pre ++ suf -> swept st st' suf kept rest ->
  forall x, In x (pre ++ kept ++ rest) -> In x (tobefnz st).
Proof.
  intros st st' pre suf kept rest C E S x I. rewrite E. apply in_or_app. apply in_app_or in I. destruct I as [I | I]; [left; exact I|].
  right. apply (proj2 (w_sub _ _ _ _ _ S)), I.
Qed.

Lemma entersweep_ok : forall st, Core st -> Lists st ->
  Core (entersweep st) /\ Lists (entersweep st) /\ Swp (entersweep st) /\ gcs (entersweep st) = GCSswpallgc.
Proof.
  intros st C L. unfold entersweep. set (s0 := set_gcs st GCSswpallgc).
  assert (C0 : Core s0) by (apply (Core_lists st s0 C); reflexivity).
  assert (L0 : Lists s0) by (apply (Lists_shape st s0 L), shape_same; reflexivity).
  destruct (sweeptolive_ok (allgc s0) s0 C0 (proj1 (NoDup_lists s0 L0)) (sweepable_allgc s0 (allgc s0) L0 (incl_refl _))) as [S E0].
  destruct (sweeptolive s0 (allgc s0)) as [[s kept] rest]. cbn [fst snd] in *.
  destruct (frest_fields _ _ (proj1 (w_rest _ _ _ _ _ S))) as [_ [Hc [Hg [Ha [Hf [Ht [Hx _]]]]]]].
  assert (C1 : Core (set_sweepgc (set_objs s (kept ++ rest) (finobj s) (tobefnz s)) (next_ptr PHead kept rest))).
  { apply Core_objs; [apply (w_core _ _ _ _ _ S) | auto]. }
  assert (L1 : Lists (set_objs s (kept ++ rest) (finobj s) (tobefnz s))).
  { rewrite Hf, Ht. apply (Lists_sweep_allgc s0 s [] (allgc s0) kept rest L0 eq_refl S). }
  split; [exact C1|]. split; [apply (Lists_shape _ _ L1), shape_same; reflexivity|]. split; [|cbn; rewrite Hg; reflexivity].
  intros x xb Hb. unfold unswept. cbn [gcs set_sweepgc set_objs]. rewrite Hg. cbn [gcs s0 set_gcs]. cbn [heap set_sweepgc set_objs] in Hb.
  cbn [fixedgc set_sweepgc set_objs cw]. rewrite Hx, Hc.
  assert (D : heap s0 x <> None).
  { destruct (in_dec Nat.eq_dec x (allgc s0)) as [I | I]; [|rewrite (w_out _ _ _ _ _ S x I) in Hb; congruence]. apply (l_heap _ L0), in_objs. auto. }
  apply (l_heap _ L0), in_objs in D. destruct D as [D | [D | [D | D]]].
  - destruct (swept_col _ _ _ _ _ x xb S Hb D) as [Q | Q]; [|auto]. left. apply in_or_app. left. unfold behind. cbn [sweepgc set_sweepgc allgc set_objs].
    destruct kept as [|k0 kept]; [rewrite E0 in Q by reflexivity; destruct Q|].
    destruct (next_ptr PHead (k0 :: kept) rest) as [q|] eqn:Nq; [|unfold next_ptr in Nq; destruct rest; [destruct Q | destruct (rev (k0 :: kept)); discriminate]].
    pose proof (next_ptr_split PHead (allgc s0) (k0 :: kept) rest q) as Sp. cbn [split_ptr fst snd] in Sp. rewrite app_nil_l in Sp.
    rewrite Sp; [exact Q | apply (proj1 (w_sub _ _ _ _ _ S)) | intros Z; rewrite Z in D; destruct D | exact Nq].
  - left. apply in_or_app. right. cbn. rewrite Hf. apply in_or_app. auto.
  - left. apply in_or_app. right. cbn. rewrite Ht. apply in_or_app. auto.
  - auto.
Qed.
