(** Traversing objects keeps the tri-colour invariant. *)
From Coq Require Import ZArith List Bool Arith Lia.
From Verif Require Import Base Gc_model Gc_spec Gc_facts Gc_tri.
Import ListNotations.
Local Open Scope nat_scope.

Definition cnt (st : gst) : nat := cwhite st + length (gray st).
Definition ext (st st' : gst) : Prop := shr st st' /\ cnt st' <= cnt st.

Lemma ext_refl : forall st, ext st st.
Proof. intros. split; [apply shr_refl | apply le_n]. Qed.
Lemma ext_trans : forall a b c, ext a b -> ext b c -> ext a c.
Proof. intros a b c [S1 C1] [S2 C2]. split; [apply (shr_trans _ _ _ S1 S2) | lia]. Qed.
Lemma ext_mrel : forall st st', typ st -> mrel st st' -> ext st st'.
Proof. intros st st' T M. split; [apply shr_mrel, M | apply (mrel_count _ _ T M)]. Qed.
Lemma ext_same : forall st st', shr st st' -> (forall x, iswhite st' x = iswhite st x) -> gray st' = gray st -> ext st st'.
Proof.
  intros st st' S W G. split; [exact S|]. unfold cnt, cwhite. rewrite G.
  destruct (sh_fld _ _ S) as [F _]. rewrite F.
  rewrite (filter_ext (iswhite st') (iswhite st) W). apply le_n.
Qed.

Lemma shr_gcs : forall st st', shr st st' -> gcs st' = gcs st.
Proof. intros st st' S. pose proof (sh_fld _ _ S) as F. tauto. Qed.
Lemma shr_nextid : forall st st', shr st st' -> nextid st' = nextid st.
Proof. intros st st' S. pose proof (sh_fld _ _ S) as F. tauto. Qed.

Lemma shr_cwhite : forall st st', shr st st' -> cwhite st' <= cwhite st.
Proof.
  intros st st' S. unfold cwhite. rewrite (shr_nextid _ _ S). apply filter_le. intros x _. apply shr_white, S.
Qed.

Lemma mrel_keep : forall st st' o ob, mrel st st' -> heap st o = Some ob -> iswhite st o = false -> heap st' o = Some ob.
Proof.
  intros st st' o ob M H W. destruct (r_some _ _ M o ob H) as [ob' [E [Wc C]]]. rewrite E. f_equal. rewrite Wc.
  assert (Wo : is_whitec (o_col ob) = false) by (unfold iswhite in W; rewrite H in W; exact W).
  destruct C as [-> | [C _]]; [apply with_col_same | congruence].
Qed.

Lemma black_nw : forall st o, isblack st o = true -> iswhite st o = false.
Proof.
  intros st o H. unfold isblack, iswhite in *. destruct (heap st o) as [ob|]; [|reflexivity]. destruct (o_col ob); [discriminate | reflexivity | reflexivity].
Qed.

Lemma mrel_black : forall st st' o, mrel st st' -> isblack st o = true -> isblack st' o = true.
Proof.
  intros st st' o M B. pose proof (black_nw _ _ B) as W. unfold isblack in *. destruct (heap st o) as [ob|] eqn:E; [|discriminate].
  rewrite (mrel_keep _ _ _ _ M E W). exact B.
Qed.

Lemma valnw_mrel : forall st st' v, mrel st st' -> valnw st v -> valnw st' v.
Proof. intros st st' v M. unfold valnw. destruct v; auto. cbn. apply mrel_nw, M. Qed.
Lemma valnw_shr : forall st st' v, shr st st' -> valnw st v -> valnw st' v.
Proof. intros st st' v M. unfold valnw. destruct v; auto. cbn. apply shr_nw, M. Qed.

(** ** The loops *)

Definition keynw (st : gst) (k : key) : Prop := forall b, k = KyObj b -> iswhite st b = false.
Lemma keynw_mrel : forall st st' k, mrel st st' -> keynw st k -> keynw st' k.
Proof. intros st st' k M H b E. apply (mrel_nw _ _ _ M), H, E. Qed.

Lemma vobj_nw : forall st v, (forall x, vobj v = Some x -> iswhite st x = false) -> valnw st v.
Proof. intros st v H. destruct v; try reflexivity. apply H. reflexivity. Qed.
Lemma kobj_nw : forall st k, (forall x, kobj k = Some x -> iswhite st x = false) -> keynw st k.
Proof. intros st k H b ->. apply H. reflexivity. Qed.

Lemma weakvalue_loop_ok : forall h st hc, typ st ->
  mrel st (fst (weakvalue_loop st h hc)) /\
  (forall k v, In (k, v) h -> v <> VNil -> keynw (fst (weakvalue_loop st h hc)) k) /\
  (snd (weakvalue_loop st h hc) = false -> hc = false /\ forall k v, In (k, v) h -> valnw (fst (weakvalue_loop st h hc)) v).
Proof.
  induction h as [|[k v] h IH]; intros st hc T; cbn [weakvalue_loop].
  - cbn. split; [apply mrel_refl|]. split; [intros ? ? [] | intros ->; split; [reflexivity | intros ? ? []]].
  - destruct (isnil v) eqn:Nv.
    + destruct (IH st hc T) as [M [K V]]. split; [exact M|]. split.
      * intros k' v' [E | I] N; [inversion E; subst; destruct v'; discriminate || congruence | apply (K k' v' I N)].
      * intros H. destruct (V H) as [V1 V2]. split; [exact V1|]. intros k' v' [E | I]; [|apply (V2 k' v' I)].
        inversion E; subst. destruct v'; try discriminate. reflexivity.
    + destruct (mark_key_ok st k T) as [M1 Q1].
      assert (T1 : typ (mark_key st k)) by (apply (typ_mrel st); assumption).
      destruct hc.
      * destruct (IH (mark_key st k) true T1) as [M [K V]]. split; [apply (mrel_trans _ _ _ M1 M)|]. split.
        -- intros k' v' [E | I] N; [|apply (K k' v' I N)]. inversion E; subst. apply (keynw_mrel _ _ _ M). exact Q1.
        -- intros H. destruct (V H) as [V1 _]. discriminate.
      * destruct (iscleared_ok (mark_key st k) (vobj v) T1) as [M2 [Q2 Q3]].
        destruct (iscleared (mark_key st k) (vobj v)) as [st2 c] eqn:Ec. cbn [fst snd] in *.
        assert (T2 : typ st2) by (apply (typ_mrel _ _ T1 M2)).
        destruct (IH st2 c T2) as [M [K V]].
        split; [apply (mrel_trans _ _ _ (mrel_trans _ _ _ M1 M2) M)|]. split.
        -- intros k' v' [E | I] N; [|apply (K k' v' I N)]. inversion E; subst. apply (keynw_mrel _ _ _ M), (keynw_mrel _ _ _ M2). exact Q1.
        -- intros H. destruct (V H) as [V1 V2]. split; [reflexivity|]. intros k' v' [E | I]; [|apply (V2 k' v' I)].
           inversion E; subst. apply (valnw_mrel _ _ _ M). apply vobj_nw. apply Q2. reflexivity.
Qed.

(** Only strings have been marked. *)
Definition strm (st st' : gst) : Prop := forall x, kind_of st x <> Some KStr -> iswhite st' x = iswhite st x.

Lemma strm_refl : forall st, strm st st. Proof. intros st x _. reflexivity. Qed.
Lemma strm_trans : forall a b c, strm a b -> strm b c -> (forall x, kind_of b x = kind_of a x) -> strm a c.
Proof. intros a b c H1 H2 K x Hx. rewrite H2; [apply H1, Hx | rewrite K; exact Hx]. Qed.

Lemma eph_arr_ok : forall l st mk, typ st ->
  mrel st (fst (eph_arr st l mk)) /\
  (forall v, In v l -> valnw (fst (eph_arr st l mk)) v) /\
  (snd (eph_arr st l mk) = false -> mk = false /\ fst (eph_arr st l mk) = st) /\
  (snd (eph_arr st l mk) = true -> mk = true \/ cwhite (fst (eph_arr st l mk)) < cwhite st).
Proof.
  induction l as [|v l IH]; intros st mk T; cbn [eph_arr].
  - cbn. split; [apply mrel_refl|]. split; [intros ? []|]. split; [auto | auto].
  - assert (Skip : valnw st v -> mrel st (fst (eph_arr st l mk)) /\
       (forall v', In v' (v :: l) -> valnw (fst (eph_arr st l mk)) v') /\
       (snd (eph_arr st l mk) = false -> mk = false /\ fst (eph_arr st l mk) = st) /\
       (snd (eph_arr st l mk) = true -> mk = true \/ cwhite (fst (eph_arr st l mk)) < cwhite st)).
    { intros N. destruct (IH st mk T) as [M [V [A B]]]. split; [exact M|]. split; [|split; assumption].
      intros v' [<- | I]; [apply (valnw_mrel _ _ _ M), N | apply V, I]. }
    destruct v as [|z|o]; [apply Skip; reflexivity | apply Skip; reflexivity |].
    destruct (iswhite st o) eqn:W; [|apply Skip; exact W].
    destruct (mark_ok st o T) as [M1 Q1]. destruct (IH (mark st o) true (typ_mrel _ _ T M1)) as [M [V [A B]]].
    split; [apply (mrel_trans _ _ _ M1 M)|]. split.
    + intros v' [<- | I]; [apply (valnw_mrel _ _ _ M); exact Q1 | apply V, I].
    + split; [intros H; destruct (A H); discriminate|]. intros _. right.
      pose proof (mrel_count_lt _ _ _ T M1 W Q1). pose proof (mrel_count_le _ _ M). lia.
Qed.

Definition keywhite (st : gst) (k : key) : Prop :=
  exists b, k = KyObj b /\ iswhite st b = true /\ kind_of st b <> Some KStr.

Lemma iscleared_strm : forall st o, typ st -> strm st (fst (iscleared st o)).
Proof.
  intros st [o|] T; cbn [iscleared]; [|apply strm_refl].
  destruct (kind_of st o) as [[]|] eqn:K; try apply strm_refl. cbn [fst].
  unfold mark. destruct (iswhite st o) eqn:W; [|apply strm_refl].
  destruct (iswhite_some _ _ W) as [ob [w [E _]]]. pose proof (t_fresh _ T _ _ E) as F.
  destruct (nextid st) as [|n]; [lia|]. cbn [mark_obj]. rewrite E. unfold kind_of in K. rewrite E in K. inversion K as [K'].
  rewrite K'. intros x Hx. rewrite iswhite_set2black. destruct (Nat.eqb_spec x o) as [->|]; [|reflexivity].
  exfalso. apply Hx. unfold kind_of. rewrite E, K'. reflexivity.
Qed.

Lemma eph_hash_ok : forall h st mk hc ww, typ st ->
  let r := eph_hash st h mk hc ww in
  let st' := fst (fst (fst r)) in let mk' := snd (fst (fst r)) in let hc' := snd (fst r) in let ww' := snd r in
  mrel st st' /\
  (mk' = false -> mk = false /\ strm st st' /\ forall k v, In (k, v) h -> v <> VNil -> keywhite st' k \/ valnw st' v) /\
  (mk' = true -> mk = true \/ cwhite st' < cwhite st) /\
  (hc' = false -> hc = false /\ forall k v, In (k, v) h -> v <> VNil -> keynw st' k /\ valnw st' v).
Proof.
  induction h as [|[k v] h IH]; intros st mk hc ww T; cbn [eph_hash].
  - cbn. split; [apply mrel_refl|]. split; [intros ->; split; [reflexivity|]; split; [apply strm_refl | intros ? ? []]|].
    split; [auto | intros ->; split; [reflexivity | intros ? ? []]].
  - destruct (isnil v) eqn:Nv.
    + assert (v = VNil) by (destruct v; [reflexivity | discriminate | discriminate]). subst v.
      destruct (IH st mk hc ww T) as [M [A [B C]]]. split; [exact M|]. split; [|split; [exact B|]].
      * intros H. destruct (A H) as [A1 [A2 A3]]. split; [exact A1|]. split; [exact A2|].
        intros k' v' [E | I] N; [inversion E; subst; congruence | apply (A3 k' v' I N)].
      * intros H. destruct (C H) as [C1 C2]. split; [exact C1|].
        intros k' v' [E | I] N; [inversion E; subst; congruence | apply (C2 k' v' I N)].
    + destruct (iscleared_ok st (kobj k) T) as [M1 [Q1 Q2]]. pose proof (iscleared_strm st (kobj k) T) as S1.
      destruct (iscleared st (kobj k)) as [st1 c] eqn:Ec. cbn [fst snd] in *.
      pose proof (typ_mrel _ _ T M1) as T1. pose proof (mrel_count_le _ _ M1) as L1.
      destruct c.
      * destruct (Q2 eq_refl) as [b [Kb [Wb [Ks ->]]]]. clear Q1 Q2.
        destruct (IH st mk true (ww || valiswhite st v) T) as [M [A [B C]]].
        cbn zeta in *. split; [exact M|]. split; [|split; [exact B|]].
        -- intros H. destruct (A H) as [A1 [A2 A3]]. split; [exact A1|]. split; [exact A2|].
           intros k' v' [E | I] N; [|apply (A3 k' v' I N)]. inversion E; subst k' v'. left. exists b.
           split; [destruct k; inversion Kb; reflexivity|]. split; [rewrite (A2 b Ks); exact Wb | rewrite (mrel_kind _ _ _ M); exact Ks].
        -- intros H. destruct (C H) as [C1 _]. discriminate.
      * destruct (valiswhite st1 v) eqn:Wv.
        -- destruct (mark_val_ok st1 v T1) as [M2 Q3]. pose proof (typ_mrel _ _ T1 M2) as T2.
           assert (Vn : valnw (mark_val st1 v) v) by (apply vobj_nw; intros x Hx; apply Q3; destruct v; inversion Hx; reflexivity).
           assert (Lt : cwhite (mark_val st1 v) < cwhite st1).
           { destruct v as [|z|o]; try discriminate. apply (mrel_count_lt _ _ o T1 M2 Wv). exact Vn. }
           destruct (IH (mark_val st1 v) true hc ww T2) as [M [A [B C]]]. cbn zeta in *.
           pose proof (mrel_trans _ _ _ (mrel_trans _ _ _ M1 M2) M) as M3. split; [exact M3|]. split; [|split].
           ++ intros H. destruct (A H) as [A1 _]. discriminate.
           ++ intros H. right. pose proof (mrel_count_le _ _ M). lia.
           ++ intros H. destruct (C H) as [C1 C2]. split; [exact C1|].
              intros k' v' [E | I] N; [|apply (C2 k' v' I N)]. inversion E; subst k' v'. split.
              ** apply (keynw_mrel _ _ _ M), (keynw_mrel _ _ _ M2), kobj_nw. apply Q1. reflexivity.
              ** apply (valnw_mrel _ _ _ M), Vn.
        -- destruct (IH st1 mk hc ww T1) as [M [A [B C]]]. cbn zeta in *.
           split; [apply (mrel_trans _ _ _ M1 M)|]. split; [|split].
           ++ intros H. destruct (A H) as [A1 [A2 A3]]. split; [exact A1|]. split.
              ** apply (strm_trans _ st1); [exact S1 | exact A2 | intros x; apply (mrel_kind _ _ _ M1)].
              ** intros k' v' [E | I] N; [|apply (A3 k' v' I N)]. inversion E; subst k' v'. right.
                 apply (valnw_mrel _ _ _ M). exact Wv.
           ++ intros H. destruct (B H) as [B1 | B1]; [left; exact B1 | right; lia].
           ++ intros H. destruct (C H) as [C1 C2]. split; [exact C1|].
              intros k' v' [E | I] N; [|apply (C2 k' v' I N)]. inversion E; subst k' v'. split.
              ** apply (keynw_mrel _ _ _ M), kobj_nw. apply Q1. reflexivity.
              ** apply (valnw_mrel _ _ _ M). exact Wv.
Qed.

(** ** Cleaning *)

Lemma removeentry_esub : forall e, esub e (removeentry e).
Proof.
  intros [k v]. unfold removeentry. destruct k as [n|o|o]; try apply esub_refl. destruct v; try apply esub_refl.
  split; cbn; [right; exists o; auto | left; reflexivity].
Qed.

Lemma clean_esub : forall h, Forall2 esub h (clean h).
Proof. induction h; constructor; [apply removeentry_esub | exact IHh]. Qed.

Lemma clean_in : forall h k v, In (k, v) (clean h) -> v <> VNil -> In (k, v) h.
Proof.
  intros h k v H N. unfold clean in H. apply in_map_iff in H. destruct H as [[k0 v0] [E I]].
  unfold removeentry in E. destruct k0; try (inversion E; subst; exact I). destruct v0; inversion E; subst; try exact I. congruence.
Qed.

Lemma clean_key : forall h b v, In (KyObj b, v) (clean h) -> v <> VNil /\ In (KyObj b, v) h.
Proof.
  intros h b v H. unfold clean in H. apply in_map_iff in H. destruct H as [[k0 v0] [E I]].
  unfold removeentry in E. destruct k0; try (inversion E; fail). destruct v0; inversion E; subst; split; try exact I; discriminate.
Qed.

Lemma osub_hash : forall a h, Forall2 esub (o_hash a) h -> osub a (with_hash a h).
Proof. intros [] h H. constructor; auto. apply Forall2_refl, vsub_refl. Qed.
Lemma osub_vals : forall a l, Forall2 vsub (o_vals a) l -> osub a (with_vals a l).
Proof. intros [] h H. constructor; auto. apply Forall2_refl, esub_refl. Qed.

(** After a content change the object is found again. *)
Section Finish.
Variables (m : mode) (E : list id) (st : gst) (o : id) (ob : obj) (h : list (key * val)).
Hypothesis C : CI m E (Some o) st.
Hypothesis Ho : heap st o = Some ob.
Hypothesis Bo : isblack st o = true.
Hypothesis Ko : o_kind ob = KTable.
Hypothesis Hh : Forall2 esub (o_hash ob) h.

Let st1 := sethash st o h.

Lemma fin_heap : heap st1 o = Some (with_hash ob h).
Proof. apply (heap_modify_eq st o (fun b => with_hash b h) ob Ho). Qed.
Lemma fin_black : isblack st1 o = true.
Proof. unfold isblack. rewrite fin_heap. unfold isblack in Bo. rewrite Ho in Bo. exact Bo. Qed.
Lemma fin_CI : CI m E (Some o) st1.
Proof.
  apply CI_content; [exact C|]. intros a Ha. rewrite Ho in Ha. inversion Ha; subst a. split; [apply osub_hash, Hh | reflexivity].
Qed.
Lemma fin_white : forall x, iswhite st1 x = iswhite st x.
Proof. intros x. apply iswhite_modify. reflexivity. Qed.
Lemma fin_shr : shr st st1.
Proof. apply shr_modify. intros a Ha. rewrite Ho in Ha. inversion Ha; subst a. apply osub_hash, Hh. Qed.
Lemma fin_ext : ext st st1.
Proof. apply ext_same; [apply fin_shr | apply fin_white | apply (modify_fields st o)]. Qed.
Lemma fin_fields : gcs st1 = gcs st /\ gray st1 = gray st /\ weak st1 = weak st /\ allweak st1 = allweak st /\
  ephemeron st1 = ephemeron st /\ grayagain st1 = grayagain st /\ uvs st1 = uvs st /\ twups st1 = twups st.
Proof.
  destruct (modify_fields st o (fun b => with_hash b h)) as [F1 [F2 [F3 [F4 [F5 [F6 [F7 [F8 F9]]]]]]]].
  unfold st1, sethash. repeat split; assumption.
Qed.
End Finish.

Lemma table_open : forall st o ob, typ st -> heap st o = Some ob -> o_kind ob = KTable -> o_open ob = [] /\ o_upv ob = [] /\ o_cache ob = None.
Proof. intros st o ob T H K. pose proof (t_kwf _ T o ob H) as W. unfold kwf in W. rewrite K in W. tauto. Qed.

Lemma CI_undo_table : forall m E o st ob, CI m E (Some o) st -> heap st o = Some ob -> o_kind ob = KTable ->
  (In o (gray st) \/ pend m E st o \/ done m st o ob) -> CI m E None st.
Proof.
  intros m E o st ob C H K D. apply (CI_undo m E o st C).
  - intros ob' H' _. rewrite H in H'. inversion H'; subst ob'. right. exact D.
  - intros ob' H' Op. exfalso. apply Op. rewrite H in H'. inversion H'; subst ob'.
    apply (table_open st o ob (c_typ _ _ _ _ C) H K).
Qed.

Lemma heap_link : forall (f : gst -> id -> gst) st o ob, (f = link_gray \/ f = link_grayagain \/ f = link_weak \/ f = link_allweak \/ f = link_ephemeron) ->
  heap st o = Some ob -> heap (f st o) o = Some (with_col ob Gray).
Proof.
  intros f st o ob F H.
  destruct F as [-> | [-> | [-> | [-> | ->]]]]; unfold link_gray, link_grayagain, link_weak, link_allweak, link_ephemeron;
    rewrite heap_setcol, Nat.eqb_refl; cbn; rewrite H; reflexivity.
Qed.

Lemma link_lists : forall st o,
  (gray (link_gray st o) = o :: gray st) /\
  (grayagain (link_grayagain st o) = o :: grayagain st /\ gray (link_grayagain st o) = gray st) /\
  (weak (link_weak st o) = o :: weak st /\ gray (link_weak st o) = gray st) /\
  (allweak (link_allweak st o) = o :: allweak st /\ gray (link_allweak st o) = gray st) /\
  (ephemeron (link_ephemeron st o) = o :: ephemeron st /\ gray (link_ephemeron st o) = gray st).
Proof.
  intros. unfold link_gray, link_grayagain, link_weak, link_allweak, link_ephemeron, setcol.
  repeat split; rewrite modify_rest; reflexivity.
Qed.

(** The phase the mode stands for. *)
Definition phase (m : mode) (st : gst) : Prop := gcs st = match m with MA => GCSpropagate | _ => GCSatomic end.

Lemma phase_shr : forall m st st', phase m st -> shr st st' -> phase m st'.
Proof. intros m st st' P S. unfold phase in *. rewrite (shr_gcs _ _ S). exact P. Qed.

(** A traversal: the popped object [o] is black and in no list. *)
Record pre (m : mode) (E : list id) (st : gst) (o : id) (ob : obj) : Prop := {
  p_ci : CI m E (Some o) st;
  p_heap : heap st o = Some ob;
  p_black : isblack st o = true;
  p_phase : phase m st
}.

Definition post (m : mode) (E : list id) (st st' : gst) : Prop := CI m E None st' /\ ext st st'.

Lemma pre_mrel : forall m E st o ob st', pre m E st o ob -> mrel st st' -> pre m E st' o ob.
Proof.
  intros m E st o ob st' [C H B P] M. constructor.
  - apply (CI_mrel _ _ _ _ _ C M).
  - apply (mrel_keep _ _ _ _ M H (black_nw _ _ B)).
  - apply (mrel_black _ _ _ M B).
  - apply (phase_shr _ _ _ P), shr_mrel, M.
Qed.

Lemma post_trans : forall m E a b c, ext a b -> post m E b c -> post m E a c.
Proof. intros m E a b c X [C Y]. split; [exact C | apply (ext_trans _ _ _ X Y)]. Qed.

Lemma pre_finish : forall m E st o ob h, pre m E st o ob -> o_kind ob = KTable -> Forall2 esub (o_hash ob) h ->
  pre m E (sethash st o h) o (with_hash ob h) /\ ext st (sethash st o h).
Proof.
  intros m E st o ob h [C H B P] K F. split.
  - constructor.
    + apply (fin_CI m E st o ob h C H F).
    + apply (fin_heap st o ob h H).
    + apply (fin_black st o ob h H B).
    + apply (phase_shr _ _ _ P), (fin_shr st o ob h H F).
  - apply (fin_ext st o ob h H F).
Qed.

(** Putting the traversed table into one of the lists. *)
Lemma post_grayagain : forall m E st o ob, pre m E st o ob -> o_kind ob = KTable -> (m = MA \/ full m st ob) ->
  post m E st (link_grayagain st o).
Proof.
  intros m E st o ob [C H B P] K D.
  destruct (CI_link_grayagain m E st o ob C H B ltac:(rewrite K; exact I)) as [C' [S W]].
  destruct (link_lists st o) as [_ [[L1 L2] _]].
  split; [|apply (ext_same _ _ S W L2)].
  apply (CI_undo_table m E o _ (with_col ob Gray) C'); [apply heap_link; auto | exact K |].
  right. destruct D as [-> | D]; [left; unfold pend; rewrite L1; left; reflexivity|]. right. left.
  apply (full_osub m _ ob (with_col ob Gray)); [apply osub_col; discriminate|].
  apply (full_mono m st _ ob D S). apply upg_eq. unfold link_grayagain, setcol. rewrite modify_rest. reflexivity.
Qed.

Lemma post_weak : forall m E st o ob, pre m E st o ob -> o_kind ob = KTable -> metanw st ob -> keysnw st ob ->
  post m E st (link_weak st o).
Proof.
  intros m E st o ob [C H B P] K D1 D2.
  destruct (CI_link_weak m E st o ob C H B ltac:(rewrite K; exact I) K) as [C' [S W]].
  destruct (link_lists st o) as [_ [_ [[L1 L2] _]]].
  split; [|apply (ext_same _ _ S W L2)].
  apply (CI_undo_table m E o _ (with_col ob Gray) C'); [apply heap_link; auto | exact K |].
  right. right. right. left. rewrite L1. split; [left; reflexivity|]. split.
  - intros b Hb. rewrite W. apply D1, Hb.
  - intros b v Hb. rewrite W. apply (D2 b v Hb).
Qed.

Lemma post_allweak : forall m E st o ob, pre m E st o ob -> o_kind ob = KTable -> metanw st ob ->
  post m E st (link_allweak st o).
Proof.
  intros m E st o ob [C H B P] K D1.
  destruct (CI_link_allweak m E st o ob C H B ltac:(rewrite K; exact I) K) as [C' [S W]].
  destruct (link_lists st o) as [_ [_ [_ [[L1 L2] _]]]].
  split; [|apply (ext_same _ _ S W L2)].
  apply (CI_undo_table m E o _ (with_col ob Gray) C'); [apply heap_link; auto | exact K |].
  right. right. right. right. left. rewrite L1. split; [left; reflexivity|].
  intros b Hb. rewrite W. apply D1, Hb.
Qed.

Lemma post_ephemeron : forall m E st o ob, pre m E st o ob -> o_kind ob = KTable -> metanw st ob -> valsnw st ob ->
  post m E st (link_ephemeron st o).
Proof.
  intros m E st o ob [C H B P] K D1 D2.
  destruct (CI_link_ephemeron m E st o ob C H B ltac:(rewrite K; exact I) K) as [C' [S W]].
  destruct (link_lists st o) as [_ [_ [_ [_ [L1 L2]]]]].
  split; [|apply (ext_same _ _ S W L2)].
  apply (CI_undo_table m E o _ (with_col ob Gray) C'); [apply heap_link; intuition | exact K |].
  right. right. right. right. right. rewrite L1. split; [left; reflexivity|]. split.
  - intros b Hb. rewrite W. apply D1, Hb.
  - intros b Hb. rewrite W. apply D2, Hb.
Qed.

Lemma post_full : forall m E st o ob, pre m E st o ob -> full m st ob -> o_open ob = [] -> post m E st st.
Proof.
  intros m E st o ob [C H B P] F Op. split; [|apply ext_refl]. apply (CI_undo m E o st C).
  - intros ob' H' _. rewrite H in H'. inversion H'; subst ob'. right. right. right. left. exact F.
  - intros ob' H' Op'. exfalso. apply Op'. congruence.
Qed.

(** A table without white references is finished. *)
Lemma full_table : forall m st o ob, typ st -> heap st o = Some ob -> o_kind ob = KTable ->
  metanw st ob -> valsnw st ob -> (forall k v, In (k, v) (o_hash ob) -> keynw st k /\ valnw st v) -> full m st ob.
Proof.
  intros m st o ob T H K M V Q. destruct (table_open st o ob T H K) as [_ [U Cc]]. split; [congruence|]. split.
  - intros b [R | [R | [[v R] | [[k R] | R]]]].
    + apply M, R.
    + apply V, R.
    + apply (proj1 (Q _ _ R)). reflexivity.
    + apply (proj2 (Q _ _ R)).
    + congruence.
  - rewrite U. intros u [].
Qed.

Lemma metanw_mrel : forall st st' ob, mrel st st' -> metanw st ob -> metanw st' ob.
Proof. intros st st' ob M H b E. apply (mrel_nw _ _ _ M), H, E. Qed.

(** traverseweakvalue *)
Lemma traverseweakvalue_ok : forall m E st o ob, pre m E st o ob -> o_kind ob = KTable -> metanw st ob ->
  post m E st (traverseweakvalue st o ob).
Proof.
  intros m E st o ob P K Mm. unfold traverseweakvalue.
  pose proof (c_typ _ _ _ _ (p_ci _ _ _ _ _ P)) as T.
  destruct (weakvalue_loop_ok (o_hash ob) st (negb (Nat.eqb (length (o_vals ob)) 0)) T) as [M [Kn Vn]].
  destruct (weakvalue_loop st (o_hash ob) (negb (Nat.eqb (length (o_vals ob)) 0))) as [st1 hc]. cbn [fst snd] in *.
  pose proof (pre_mrel _ _ _ _ _ _ P M) as P1.
  destruct (pre_finish m E st1 o ob (clean (o_hash ob)) P1 K (clean_esub _)) as [P2 X2].
  set (st2 := sethash st1 o (clean (o_hash ob))) in *.
  set (ob2 := with_hash ob (clean (o_hash ob))) in *.
  assert (W2 : forall x, iswhite st2 x = iswhite st1 x) by apply fin_white.
  apply (post_trans m E st st1); [apply (ext_mrel _ _ T M)|]. apply (post_trans m E st1 st2); [exact X2|].
  assert (Mm2 : metanw st2 ob2) by (intros b Hb; rewrite W2; apply (metanw_mrel _ _ _ M Mm), Hb).
  assert (Kn2 : keysnw st2 ob2).
  { intros b v Hb. rewrite W2. destruct (clean_key _ _ _ Hb) as [N I]. apply (Kn _ _ I N). reflexivity. }
  destruct (is_atomic (gcs st2) && hc) eqn:Q.
  - apply (post_weak m E st2 o ob2 P2 K Mm2 Kn2).
  - apply (post_grayagain m E st2 o ob2 P2 K).
    pose proof (p_phase _ _ _ _ _ P2) as Ph. unfold phase in Ph. destruct m; [left; reflexivity | right | right].
    all: rewrite Ph in Q; cbn in Q; destruct (Vn Q) as [V1 V2].
    all: apply (full_table _ st2 o ob2 (c_typ _ _ _ _ (p_ci _ _ _ _ _ P2)) (p_heap _ _ _ _ _ P2) K Mm2).
    + intros b Hb. cbn in Hb. destruct (o_vals ob); [destruct Hb | discriminate].
    + intros k v I. split.
      * intros b ->. apply (Kn2 b v I).
      * unfold valnw. destruct v as [|z|x] eqn:Ev; try reflexivity. cbn. rewrite W2. apply (V2 k (VObj x)).
        apply (clean_in _ _ _ I). discriminate.
    + intros b Hb. cbn in Hb. destruct (o_vals ob); [destruct Hb | discriminate].
    + intros k v I. split.
      * intros b ->. apply (Kn2 b v I).
      * unfold valnw. destruct v as [|z|x] eqn:Ev; try reflexivity. cbn. rewrite W2. apply (V2 k (VObj x)).
        apply (clean_in _ _ _ I). discriminate.
Qed.

(** traverseephemeron *)
Lemma traverseephemeron_ok : forall m E st o ob, pre m E st o ob -> o_kind ob = KTable -> metanw st ob ->
  let st' := fst (traverseephemeron st o ob) in let mk := snd (traverseephemeron st o ob) in
  post m E st st' /\
  (mk = true -> cwhite st' < cwhite st) /\
  (mk = false -> strm st st' /\ gray st' = gray st /\
     (m <> MA -> incl (ephemeron st') (o :: ephemeron st)) /\
     forall ob', heap st' o = Some ob' -> forall k v, In (k, v) (o_hash ob') -> v <> VNil -> keywhite st' k \/ valnw st' v).
Proof.
  intros m E st o ob P K Mm. unfold traverseephemeron.
  pose proof (c_typ _ _ _ _ (p_ci _ _ _ _ _ P)) as T.
  destruct (eph_arr_ok (o_vals ob) st false T) as [M1 [V1 [A1 B1]]].
  destruct (eph_arr st (o_vals ob) false) as [st1 m1]. cbn [fst snd] in *.
  pose proof (typ_mrel _ _ T M1) as T1.
  destruct (eph_hash_ok (o_hash ob) st1 m1 false false T1) as [M2 [A2 [B2 C2]]].
  destruct (eph_hash st1 (o_hash ob) m1 false false) as [[[st2 mk] hc] ww]. cbn [fst snd] in *.
  pose proof (mrel_trans _ _ _ M1 M2) as M. pose proof (pre_mrel _ _ _ _ _ _ P M) as P2.
  destruct (pre_finish m E st2 o ob (clean (o_hash ob)) P2 K (clean_esub _)) as [P3 X3].
  pose proof (fin_fields st2 o (clean (o_hash ob))) as [Fg [Fgr [_ [_ [Fep _]]]]].
  set (st3 := sethash st2 o (clean (o_hash ob))) in *.
  set (ob3 := with_hash ob (clean (o_hash ob))) in *.
  assert (W3 : forall x, iswhite st3 x = iswhite st2 x) by apply fin_white.
  assert (K3 : forall x, kind_of st3 x = kind_of st x).
  { intros x. rewrite (shr_kind _ _ _ (proj1 X3)). apply (mrel_kind _ _ _ M). }
  assert (Mm3 : metanw st3 ob3) by (intros b Hb; rewrite W3; apply (metanw_mrel _ _ _ M Mm), Hb).
  assert (V3 : valsnw st3 ob3).
  { intros b Hb. rewrite W3. apply (mrel_nw _ _ _ M2). apply (V1 (VObj b)). exact Hb. }
  pose proof (ext_trans _ _ _ (ext_mrel _ _ T M) X3) as X.
  set (st4 := if is_propagate (gcs st3) then link_grayagain st3 o
              else if ww then link_ephemeron st3 o else if hc then link_allweak st3 o else st3).
  assert (Post : post m E st3 st4).
  { pose proof (p_phase _ _ _ _ _ P3) as Ph. unfold phase in Ph. unfold st4. rewrite Ph. destruct m; cbn [is_propagate].
    - apply (post_grayagain MA E st3 o ob3 P3 K). left; reflexivity.
    - destruct ww; [apply (post_ephemeron MB E st3 o ob3 P3 K Mm3 V3)|].
      destruct hc; [apply (post_allweak MB E st3 o ob3 P3 K Mm3)|]. destruct (C2 eq_refl) as [_ C3].
      assert (T3 : typ st3) by (apply (c_typ _ _ _ _ (p_ci _ _ _ _ _ P3))).
      apply (post_full MB E st3 o ob3 P3).
      + apply (full_table _ st3 o ob3 T3 (p_heap _ _ _ _ _ P3) K Mm3 V3). intros k v I.
        split; [intros b -> | destruct v as [|z|x] eqn:Ev; try reflexivity; unfold valnw; cbn]; rewrite W3.
        * destruct (clean_key _ _ _ I) as [N I']. apply (proj1 (C3 _ _ I' N)). reflexivity.
        * apply (proj2 (C3 k (VObj x) (clean_in _ _ _ I ltac:(discriminate)) ltac:(discriminate))).
      + apply (table_open st3 o ob3 T3 (p_heap _ _ _ _ _ P3) K).
    - destruct ww; [apply (post_ephemeron MC E st3 o ob3 P3 K Mm3 V3)|].
      destruct hc; [apply (post_allweak MC E st3 o ob3 P3 K Mm3)|]. destruct (C2 eq_refl) as [_ C3].
      assert (T3 : typ st3) by (apply (c_typ _ _ _ _ (p_ci _ _ _ _ _ P3))).
      apply (post_full MC E st3 o ob3 P3).
      + apply (full_table _ st3 o ob3 T3 (p_heap _ _ _ _ _ P3) K Mm3 V3). intros k v I.
        split; [intros b -> | destruct v as [|z|x] eqn:Ev; try reflexivity; unfold valnw; cbn]; rewrite W3.
        * destruct (clean_key _ _ _ I) as [N I']. apply (proj1 (C3 _ _ I' N)). reflexivity.
        * apply (proj2 (C3 k (VObj x) (clean_in _ _ _ I ltac:(discriminate)) ltac:(discriminate))).
      + apply (table_open st3 o ob3 T3 (p_heap _ _ _ _ _ P3) K). }
  assert (W4 : forall x, iswhite st4 x = iswhite st3 x).
  { intros x. assert (Wo : iswhite st3 o = false) by apply (black_nw _ _ (p_black _ _ _ _ _ P3)).
    unfold st4. destruct (is_propagate (gcs st3)); [|destruct ww; [|destruct hc; [|reflexivity]]];
      unfold link_grayagain, link_ephemeron, link_allweak; rewrite iswhite_setcol; try reflexivity; exact Wo. }
  assert (G4 : gray st4 = gray st3).
  { unfold st4. destruct (link_lists st3 o) as [_ [[_ L1] [_ [[_ L2] [_ L3]]]]].
    destruct (is_propagate (gcs st3)); [exact L1|]. destruct ww; [exact L3|]. destruct hc; [exact L2 | reflexivity]. }
  cbn zeta. cbn [fst snd]. fold st4. split; [apply (post_trans m E st st3); assumption|]. split.
  - intros Hm. assert (cwhite st4 <= cwhite st3) by (apply shr_cwhite, Post).
    assert (cwhite st3 <= cwhite st2) by (apply shr_cwhite, X3).
    pose proof (mrel_count_le _ _ M1). pose proof (mrel_count_le _ _ M2).
    destruct (B2 Hm) as [B | B]; [|lia]. destruct (B1 B); [discriminate | lia].
  - intros Hm. destruct (A2 Hm) as [Hm1 [S2 E2]]. destruct (A1 Hm1) as [_ E1].
    assert (K4 : forall x, kind_of st4 x = kind_of st3 x) by (intros x; apply (shr_kind _ _ _ (proj1 (proj2 Post)))).
    subst st1. split; [|split; [|split]].
    + intros x Hx. rewrite W4, W3. apply S2, Hx.
    + rewrite G4, Fgr. destruct (r_gray _ _ M2) as [l [Gl [Nl Pl]]]. rewrite Gl. destruct l as [|y l]; [reflexivity|].
      exfalso. destruct (Pl y (or_introl eq_refl)) as [Wy [yb [Hy [Cy Ly]]]].
      assert (Ks : kind_of st y <> Some KStr).
      { rewrite <- (mrel_kind _ _ _ M2). unfold kind_of. rewrite Hy. intros [= Q]. rewrite Q in Ly. exact Ly. }
      pose proof (S2 y Ks) as Q. rewrite Wy in Q. unfold iswhite in Q. rewrite Hy, Cy in Q. discriminate.
    + intros Nm. pose proof (p_phase _ _ _ _ _ P3) as Ph. unfold phase in Ph.
      assert (Ee : ephemeron st3 = ephemeron st) by (rewrite Fep; apply (mrel_fields _ _ M2)).
      rewrite <- Ee. unfold st4. replace (is_propagate (gcs st3)) with false by (rewrite Ph; destruct m; [congruence | reflexivity | reflexivity]).
      destruct ww; [rewrite (proj1 (proj2 (proj2 (proj2 (proj2 (link_lists st3 o)))))); apply incl_refl|].
      destruct hc; [|apply incl_tl, incl_refl]. unfold link_allweak, setcol. rewrite modify_rest. cbn. apply incl_tl, incl_refl.
    + intros ob' Hob' k v I N.
      assert (Hh : o_hash ob' = clean (o_hash ob)).
      { assert (Q : heap st4 o = Some ob3 \/ heap st4 o = Some (with_col ob3 Gray)).
        { pose proof (p_heap _ _ _ _ _ P3) as H3. unfold st4. destruct (is_propagate (gcs st3)); [right; apply heap_link; auto|].
          destruct ww; [right; apply heap_link; intuition|]. destruct hc; [right; apply heap_link; auto | left; exact H3]. }
        rewrite Hob' in Q. destruct Q as [Q | Q]; inversion Q; reflexivity. }
      rewrite Hh in I. pose proof (clean_in _ _ _ I N) as I'. destruct (E2 k v I' N) as [[b [Kb [Wb Sb]]] | Vn].
      * left. exists b. split; [exact Kb|]. split; [rewrite W4, W3; exact Wb|]. rewrite K4, K3.
        rewrite <- (mrel_kind _ _ _ M2). exact Sb.
      * right. unfold valnw in *. destruct v; try reflexivity. cbn in *. rewrite W4, W3. exact Vn.
Qed.

(** traversestrongtable *)
Lemma traversestrongtable_ok : forall m E st o ob, pre m E st o ob -> o_kind ob = KTable -> metanw st ob ->
  post m E st (traversestrongtable st o ob).
Proof.
  intros m E st o ob P K Mm. unfold traversestrongtable.
  pose proof (c_typ _ _ _ _ (p_ci _ _ _ _ _ P)) as T.
  destruct (mark_vals_ok (o_vals ob) st T) as [M1 V1].
  destruct (mark_entries_ok (o_hash ob) _ (typ_mrel _ _ T M1)) as [M2 V2].
  set (st2 := fold_left mark_entry (o_hash ob) (mark_vals st (o_vals ob))) in *.
  pose proof (mrel_trans _ _ _ M1 M2) as M. pose proof (pre_mrel _ _ _ _ _ _ P M) as P2.
  destruct (pre_finish m E st2 o ob (clean (o_hash ob)) P2 K (clean_esub _)) as [P3 X3].
  set (st3 := sethash st2 o (clean (o_hash ob))) in *.
  assert (W3 : forall x, iswhite st3 x = iswhite st2 x) by apply fin_white.
  apply (post_trans m E st st3); [apply (ext_trans _ _ _ (ext_mrel _ _ T M) X3)|].
  assert (T3 : typ st3) by (apply (c_typ _ _ _ _ (p_ci _ _ _ _ _ P3))).
  apply (post_full m E st3 o _ P3).
  - apply (full_table _ st3 o _ T3 (p_heap _ _ _ _ _ P3) K).
    + intros b Hb. rewrite W3. apply (metanw_mrel _ _ _ M Mm), Hb.
    + intros b Hb. rewrite W3. apply (mrel_nw _ _ _ M2), V1, Hb.
    + intros k v I. split.
      * intros b ->. rewrite W3. destruct (clean_key _ _ _ I) as [N I']. apply (V2 _ _ b I' N). left; reflexivity.
      * unfold valnw. destruct v as [|z|x]; try reflexivity. cbn. rewrite W3.
        apply (V2 k (VObj x) x (clean_in _ _ _ I ltac:(discriminate)) ltac:(discriminate)). right; reflexivity.
  - apply (table_open st3 o _ T3 (p_heap _ _ _ _ _ P3) K).
Qed.

Lemma traversetable_ok : forall m E st o ob, pre m E st o ob -> o_kind ob = KTable -> post m E st (traversetable st o ob).
Proof.
  intros m E st o ob P K. unfold traversetable.
  pose proof (c_typ _ _ _ _ (p_ci _ _ _ _ _ P)) as T.
  destruct (mrel_mark_meta st (o_meta ob)) as [M1 W1]; [intros t Et; apply (t_meta _ T o ob t (p_heap _ _ _ _ _ P) Et)|].
  pose proof (pre_mrel _ _ _ _ _ _ P M1) as P1.
  assert (Mm : metanw (mark_meta st (o_meta ob)) ob) by (intros b Hb; apply W1, Hb).
  apply (post_trans m E st _ _ (ext_mrel _ _ T M1)).
  destruct (weakmode st ob) as [[] []].
  - apply (post_allweak m E _ o ob P1 K Mm).
  - apply (traverseephemeron_ok m E _ o ob P1 K Mm).
  - apply (traverseweakvalue_ok m E _ o ob P1 K Mm).
  - apply (traversestrongtable_ok m E _ o ob P1 K Mm).
Qed.
