(** The atomic phase: upvalues of unmarked threads, ephemerons, clearing. *)
From Coq Require Import ZArith List Bool Arith Lia.
From Verif Require Import Base Gc_model Gc_spec Gc_facts Gc_tri Gc_trav Gc_prop.
Import ListNotations.
Local Open Scope nat_scope.

(** ** remarkupvals *)

Definition uvwf (st : gst) : Prop :=
  forall u th i t, uvs st u = Some (UOpen th i t) -> exists ob, heap st th = Some ob /\ In u (o_open ob).

Lemma uvwf_shr : forall st st', uvwf st -> shr st st' -> uvwf st'.
Proof.
  intros st st' H S u th i t E. pose proof (sh_uv _ _ S u) as U. rewrite E in U.
  destruct (uvs st u) as [[th0 i0 t0|v]|] eqn:E0; cbn in U.
  - destruct U as [t1 U]. inversion U; subst. destruct (H u th0 i0 t0 E0) as [ob [Hb I]].
    destruct (sh_some _ _ S th0 ob Hb) as [b [Hb' Sb]]. exists b. split; [exact Hb'|]. rewrite (os_open _ _ Sb). exact I.
  - discriminate.
  - discriminate.
Qed.

(** Objects that stop being white are in the gray list (unless they are leaves). *)
Definition grow (st st' : gst) : Prop :=
  incl (gray st) (gray st') /\
  forall x ob, heap st x = Some ob -> o_kind ob = KThread -> iswhite st x = true -> iswhite st' x = true \/ In x (gray st').

Lemma grow_refl : forall st, grow st st.
Proof. intros st. split; [apply incl_refl | auto]. Qed.
Lemma grow_trans : forall a b c, shr a b -> grow a b -> grow b c -> grow a c.
Proof.
  intros a b c S [I1 G1] [I2 G2]. split; [apply (incl_tran I1 I2)|]. intros x ob H K W.
  destruct (G1 x ob H K W) as [W1 | J]; [|right; apply I2, J].
  destruct (sh_some _ _ S x ob H) as [b' [Hb Sb]]. apply (G2 x b' Hb); [rewrite (os_kind _ _ Sb); exact K | exact W1].
Qed.
Lemma grow_mrel : forall st st', mrel st st' -> grow st st'.
Proof.
  intros st st' M. split.
  - destruct (r_gray _ _ M) as [l [G _]]. rewrite G. apply incl_appr, incl_refl.
  - intros x ob H K W. destruct (r_some _ _ M x ob H) as [ob' [H' [Wc C]]].
    destruct C as [C | [_ [[_ [L _]] | [_ [_ I]]]]].
    + left. unfold iswhite in *. rewrite H in W. rewrite H', C. exact W.
    + rewrite K in L. exfalso. apply L. exact I.
    + right; exact I.
Qed.

Definition touched (st : gst) (u : nat) (th : id) : Prop := exists i, uvs st u = Some (UOpen th i true).

Lemma remark_upv_ok : forall E st u, CI MB E None st ->
  let st' := remark_upv st u in
  CI MB E None st' /\ shr st st' /\ grow st st' /\ twups st' = twups st /\
  (forall x th, touched st' x th -> touched st x th /\ x <> u).
Proof.
  intros E st u C. cbn zeta. unfold remark_upv.
  assert (Same : forall th, ~ touched st u th -> forall x th', touched st x th' -> touched st x th' /\ x <> u \/ th' <> th).
  { intros th N x th' H. destruct (Nat.eq_dec th' th) as [->|]; [|right; assumption]. left. split; [exact H|].
    intros ->. contradiction. }
  destruct (uvs st u) as [[th i [|]|v]|] eqn:Eu;
    try (split; [exact C|]; split; [apply shr_refl|]; split; [apply grow_refl|]; split; [reflexivity|];
         intros x th' [j Hj]; split; [exists j; exact Hj | intros ->; congruence]).
  pose proof (c_typ _ _ _ _ C) as T. destruct (mark_val_ok st (uv_val st u) T) as [M Q].
  set (st1 := mark_val st (uv_val st u)) in *. pose proof (CI_mrel _ _ _ _ _ C M) as C1.
  assert (Eu1 : uvs st1 u = Some (UOpen th i true)) by (replace (uvs st1) with (uvs st) by (symmetry; apply (mrel_fields _ _ M)); exact Eu).
  fold (touch st1 u th i false).
  assert (S2 : shr st1 (touch st1 u th i false)) by (apply (shr_touch st1 u th i true false Eu1)).
  assert (Vn : valnw st1 (uv_val st1 u)).
  { destruct (uv_val_shr _ _ u (shr_mrel _ _ M)) as [-> | ->]; [|reflexivity].
    apply vobj_nw. intros x Hx. apply Q. destruct (uv_val st u); inversion Hx; reflexivity. }
  assert (Same2 : forall x, uv_val (touch st1 u th i false) x = uv_val st1 x).
  { intros x. unfold uv_val. cbn. destruct (Nat.eqb_spec x u) as [->|]; [rewrite Eu1; reflexivity | reflexivity]. }
  assert (Op : forall x, openok MB st1 x -> openok MB (touch st1 u th i false) x).
  { intros x Ox. unfold openok in *. rewrite (Same2 x). cbn [touch uvs set_uvs]. destruct (Nat.eqb_spec x u) as [->|].
    - right. left. exact Vn.
    - exact Ox. }
  split; [|split; [|split; [|split]]].
  - destruct C1 as [T1 C1 TW1 G1]. constructor.
    + apply (typ_shr _ _ T1 S2).
    + refine (TC_mono2 MB E None st1 _ C1 S2 Op (fun x _ I => I) (fun _ x I => I) (fun x I => I) (fun x I => I) (fun x I => I) _).
      intros x ob' _ _ W1 W2. unfold touch, set_uvs, iswhite in W2. cbn in W2. unfold iswhite in W1. congruence.
    + exact TW1.
    + destruct G1 as [N Col Tab]. constructor; [exact N | exact Col | exact Tab].
  - apply (shr_trans _ st1); [apply shr_mrel, M | exact S2].
  - apply (grow_trans _ st1); [apply shr_mrel, M | apply grow_mrel, M |]. split; [apply incl_refl | auto].
  - cbn. apply (mrel_fields _ _ M).
  - intros x th' [j Hj]. cbn in Hj. destruct (Nat.eqb_spec x u) as [->|n]; [inversion Hj|]. split; [|exact n].
    exists j. rewrite <- Hj. symmetry. replace (uvs st1) with (uvs st) by (symmetry; apply (mrel_fields _ _ M)). reflexivity.
Qed.

Lemma remark_upvs_ok : forall l E st, CI MB E None st ->
  let st' := fold_left remark_upv l st in
  CI MB E None st' /\ shr st st' /\ grow st st' /\ twups st' = twups st /\
  (forall x th, touched st' x th -> touched st x th /\ ~ In x l).
Proof.
  induction l as [|u l IH]; intros E st C; cbn [fold_left].
  - split; [exact C|]. split; [apply shr_refl|]. split; [apply grow_refl|]. split; [reflexivity|]. intros x th H. split; [exact H | intros []].
  - destruct (remark_upv_ok E st u C) as [C1 [S1 [G1 [W1 N1]]]]. destruct (IH E _ C1) as [C2 [S2 [G2 [W2 N2]]]]. cbn zeta in *.
    split; [exact C2|]. split; [apply (shr_trans _ _ _ S1 S2)|]. split; [apply (grow_trans _ _ _ S1 G1 G2)|]. split; [congruence|].
    intros x th H. destruct (N2 x th H) as [H1 Nl]. destruct (N1 x th H1) as [H0 Nu]. split; [exact H0|]. intros [<- | I]; [congruence | contradiction].
Qed.

(** An existing object that is marked. *)
Definition hnw (st : gst) (o : id) : Prop := heap st o <> None /\ iswhite st o = false.
Lemma hnw_shr : forall st st' o, hnw st o -> shr st st' -> hnw st' o.
Proof.
  intros st st' o [H W] S. split; [|apply (shr_nw _ _ _ S), W]. destruct (heap st o) as [a|] eqn:E; [|congruence].
  destruct (sh_some _ _ S o a E) as [b [Hb _]]. congruence.
Qed.

Lemma remark_loop_ok : forall l E st, CI MB E None st -> uvwf st ->
  (forall u th, touched st u th -> iswhite st th = false \/ In th l) ->
  let st' := fst (remark_loop st l) in let r := snd (remark_loop st l) in
  CI MB E None st' /\ shr st st' /\ grow st st' /\
  (forall u th, touched st' u th -> iswhite st' th = false) /\
  incl r l /\ (forall o, In o r -> hnw st' o) /\
  (forall o ob, In o l -> heap st o = Some ob -> o_kind ob = KThread -> o_open ob <> [] -> In o r \/ iswhite st' o = true \/ In o (gray st')).
Proof.
  induction l as [|t l IH]; intros E st C U R; cbn [remark_loop].
  - cbn. split; [exact C|]. split; [apply shr_refl|]. split; [apply grow_refl|]. split.
    + intros u th H. destruct (R u th H) as [A | []]. exact A.
    + split; [apply incl_refl|]. split; [intros o [] | intros o ob []].
  - destruct (heap st t) as [ob|] eqn:Et.
    + destruct (negb (iswhite st t) && negb (Nat.eqb (length (o_open ob)) 0)) eqn:Q.
      * apply andb_true_iff in Q. destruct Q as [Q1 Q2]. apply negb_true_iff in Q1.
        destruct (IH E st C U) as [C1 [S1 [G1 [T1 [I1 [N1 K1]]]]]].
        { intros u th H. destruct (R u th H) as [A | [<- | A]]; [left; exact A | left; exact Q1 | right; exact A]. }
        destruct (remark_loop st l) as [st' r]. cbn [fst snd] in *.
        split; [exact C1|]. split; [exact S1|]. split; [exact G1|]. split; [exact T1|].
        split; [intros x [<- | J]; [left; reflexivity | right; apply I1, J]|].
        split; [intros o [<- | J]; [apply (hnw_shr st); [split; [congruence | exact Q1] | exact S1] | apply N1, J]|].
        intros o ob' [<- | J] H K Op; [left; left; reflexivity|]. destruct (K1 o ob' J H K Op) as [A | A]; [left; right; exact A | right; exact A].
      * destruct (remark_upvs_ok (o_open ob) E st C) as [C1 [S1 [G1 [W1 N1]]]]. cbn zeta in *.
        set (st1 := fold_left remark_upv (o_open ob) st) in *.
        destruct (IH E st1 C1 (uvwf_shr _ _ U S1)) as [C2 [S2 [G2 [T2 [I2 [N2 K2]]]]]].
        { intros u th H. destruct (N1 u th H) as [H0 Nu]. destruct (R u th H0) as [A | [<- | A]].
          - left. apply (shr_nw _ _ _ S1), A.
          - exfalso. destruct H0 as [i Hi]. destruct (U u t i true Hi) as [ob' [Hb I]]. apply Nu. congruence.
          - right; exact A. }
        cbn zeta in *. destruct (remark_loop st1 l) as [st' r]. cbn [fst snd] in *.
        split; [exact C2|]. split; [apply (shr_trans _ _ _ S1 S2)|]. split; [apply (grow_trans _ _ _ S1 G1 G2)|]. split; [exact T2|].
        split; [apply incl_tl, I2|]. split; [exact N2|].
        intros o ob' [<- | J] H K Op.
        -- rewrite Et in H. inversion H; subst ob'.
           assert (W : iswhite st t = true).
           { destruct (iswhite st t); [reflexivity|]. cbn in Q. destruct (o_open ob); [congruence | discriminate]. }
           destruct (grow_trans _ _ _ S1 G1 G2) as [_ G3]. right. apply (G3 t ob Et K W).
        -- destruct (sh_some _ _ S1 o ob' H) as [b [Hb Sb]].
           apply (K2 o b J Hb); [rewrite (os_kind _ _ Sb); exact K | rewrite (os_open _ _ Sb); exact Op].
    + destruct (IH E st C U) as [C1 [S1 [G1 [T1 [I1 [N1 K1]]]]]].
      { intros u th H. destruct (R u th H) as [A | [<- | A]]; [left; exact A | | right; exact A].
        exfalso. destruct H as [i Hi]. destruct (U u t i true Hi) as [ob' [Hb _]]. congruence. }
      cbn zeta in *. split; [exact C1|]. split; [exact S1|]. split; [exact G1|]. split; [exact T1|]. split; [apply incl_tl, I1|].
      split; [exact N1|]. intros o ob' [<- | J] H K Op; [congruence | apply (K1 o ob' J H K Op)].
Qed.

Lemma open_thread : forall st o ob, typ st -> heap st o = Some ob -> o_open ob <> [] -> o_kind ob = KThread.
Proof.
  intros st o ob T H O. pose proof (t_kwf _ T o ob H) as K. unfold kwf in K.
  destruct (o_kind ob); try reflexivity; exfalso; apply O; tauto.
Qed.

Lemma shr_twups : forall st l, shr st (set_twups st l).
Proof.
  intros. constructor; cbn; auto.
  - intros o a H. exists a. split; [exact H | apply osub_refl].
  - intros u. apply usub_refl.
  - repeat split.
Qed.

Lemma remarkupvals_ok : forall E st, CI MB E None st -> uvwf st ->
  CI MC E None (remarkupvals st) /\ shr st (remarkupvals st) /\
  incl (twups (remarkupvals st)) (twups st) /\ (forall o, In o (twups (remarkupvals st)) -> hnw (remarkupvals st) o).
Proof.
  intros E st C U. unfold remarkupvals. pose proof (c_typ _ _ _ _ C) as T.
  destruct (remark_loop_ok (twups st) E st C U) as [C1 [S1 [G1 [T1 [I1 [N1 K1]]]]]].
  { intros u th [i Hi]. right. destruct (U u th i true Hi) as [ob [Hb I]].
    destruct (c_tw _ _ _ _ C th ob Hb) as [A | [A _]]; [intros Q; rewrite Q in I; destruct I | exact A | discriminate]. }
  destruct (remark_loop st (twups st)) as [st1 r]. cbn [fst snd] in *.
  assert (S2 : shr st (set_twups st1 r)) by (apply (shr_trans _ st1); [exact S1 | apply shr_twups]).
  split; [|split; [exact S2 | split; [exact I1 | exact N1]]].
  destruct C1 as [Ty1 C1 TW1 Gl1]. constructor.
  - apply (typ_shr _ _ T S2).
  - assert (Op : forall x, openok MB st1 x -> openok MC st1 x).
    { intros x. unfold openok. destruct (uvs st1 x) as [[th i t|v]|] eqn:Ex; auto.
      intros [A | A]; [|exact A]. right. subst t. apply (T1 x th). exists i. exact Ex. }
    intros o ob X H W. destruct (C1 o ob X H W) as [A | [A | [A | A]]]; [left; exact A | right; left; exact A | right; right; left; exact A |].
    right; right; right. destruct A as [[A1 [A2 A3]] | A]; [|right; exact A]. left.
    split; [intros _; discriminate|]. split; [exact A2|]. intros u Iu. apply Op, A3, Iu.
  - intros o ob H Ho. cbn in H.
    destruct (shr_inv _ _ _ _ S1 H) as [a [Ea Sa]].
    pose proof (open_thread st1 o ob Ty1 H Ho) as K.
    destruct (c_tw _ _ _ _ C o a Ea) as [A | [A _]]; [rewrite <- (os_open _ _ Sa); exact Ho | | discriminate].
    destruct (K1 o a A Ea) as [B | [B | B]].
    + rewrite <- (os_kind _ _ Sa). exact K.
    + rewrite <- (os_open _ _ Sa). exact Ho.
    + left. exact B.
    + right. split; [reflexivity|]. right. left. exact B.
    + right. split; [reflexivity|]. right. right. left. exact B.
  - destruct Gl1 as [N Col Tab]. constructor; [exact N | exact Col | exact Tab].
Qed.

(** ** convergeephemerons *)

Definition fixstr (st : gst) : Prop := forall o, In o (fixedgc st) -> kind_of st o = Some KStr.
Lemma fixstr_shr : forall st st', fixstr st -> shr st st' -> fixstr st'.
Proof.
  intros st st' F S o I. rewrite (shr_kind _ _ _ S). apply F. pose proof (sh_fld _ _ S) as Fl. decompose [and] Fl. congruence.
Qed.

(** Every entry of the ephemeron table has a white key or a marked value. *)
Definition EPH (st : gst) (o : id) : Prop :=
  forall ob, heap st o = Some ob -> forall k v, In (k, v) (o_hash ob) -> v <> VNil -> keywhite st k \/ valnw st v.

Lemma entry_shr : forall a b k v, osub a b -> In (k, v) (o_hash b) -> v <> VNil -> In (k, v) (o_hash a).
Proof.
  intros a b k v S I N. destruct (Forall2_esub_in _ _ _ _ (os_hash _ _ S) I) as [k0 [v0 [I0 [E V]]]]. cbn in E, V.
  destruct V as [V | V]; [|congruence]. destruct E as [E | [x [_ [_ E]]]]; [|congruence]. subst. exact I0.
Qed.

Lemma EPH_shr : forall st st' o, EPH st o -> shr st st' -> strm st st' -> EPH st' o.
Proof.
  intros st st' o H S M b Hb k v I N. destruct (shr_inv _ _ _ _ S Hb) as [a [Ea Sa]].
  destruct (H a Ea k v (entry_shr _ _ _ _ Sa I N) N) as [[x [Kx [Wx Sx]]] | V].
  - left. exists x. split; [exact Kx|]. split; [rewrite (M x Sx); exact Wx | rewrite (shr_kind _ _ _ S); exact Sx].
  - right. apply (valnw_shr _ _ _ S V).
Qed.

Definition metatab (st : gst) (o : id) : Prop :=
  kind_of st o = Some KTable /\ forall ob, heap st o = Some ob -> metanw st ob.

Lemma metatab_shr : forall st st' o, metatab st o -> shr st st' -> metatab st' o.
Proof.
  intros st st' o [K M] S. split; [rewrite (shr_kind _ _ _ S); exact K|]. intros b Hb.
  destruct (shr_inv _ _ _ _ S Hb) as [a [Ea Sa]]. intros x Hx. apply (shr_nw _ _ _ S), (M a Ea).
  rewrite <- (os_meta _ _ Sa). exact Hx.
Qed.

Lemma strm_shr_trans : forall a b c, shr a b -> strm a b -> strm b c -> strm a c.
Proof. intros a b c S H1 H2. apply (strm_trans a b c H1 H2). intros x. apply (shr_kind _ _ _ S). Qed.

Lemma converge_pass_ok : forall l st ch, CI MC l None st -> phase MC st -> gray st = [] -> (forall o, In o l -> metatab st o) ->
  let st' := fst (converge_pass st l ch) in let ch' := snd (converge_pass st l ch) in
  CI MC [] None st' /\ shr st st' /\ gray st' = [] /\
  (ch' = true -> ch = true \/ cwhite st' < cwhite st) /\
  (ch' = false -> ch = false /\ strm st st' /\ (forall o, In o l -> EPH st' o) /\ incl (ephemeron st') (l ++ ephemeron st)).
Proof.
  induction l as [|o l IH]; intros st ch C Ph G Mt; cbn [converge_pass].
  - cbn. split; [exact C|]. split; [apply shr_refl|]. split; [exact G|]. split; [auto|].
    intros ->. split; [reflexivity|]. split; [apply strm_refl|]. split; [intros o [] | apply incl_refl].
  - assert (Io : In o (glists (o :: l) st)) by (apply in_glists; do 5 right; left; reflexivity).
    destruct (pop_pre MC (o :: l) st o st l C Ph) as [ob [P [S0 L0]]]; try reflexivity.
    + apply shr_refl.
    + exists (gray st ++ grayagain st ++ weak st ++ allweak st ++ ephemeron st), l.
      unfold glists. repeat rewrite <- app_assoc. split; reflexivity.
    + auto.
    + apply incl_refl.
    + intros x n [J | J]; [congruence | exact J].
    + exact Io.
    + set (st0 := set2black st o) in *. rewrite (p_heap _ _ _ _ _ P).
      pose proof (metatab_shr _ _ o (Mt o (or_introl eq_refl)) S0) as [K0 M0].
      assert (K : o_kind ob = KTable) by (unfold kind_of in K0; rewrite (p_heap _ _ _ _ _ P) in K0; congruence).
      destruct (traverseephemeron_ok MC l st0 o ob P K (M0 ob (p_heap _ _ _ _ _ P))) as [[C1 X1] [B1 A1]].
      destruct (traverseephemeron st0 o ob) as [st1 mk]. cbn [fst snd] in *.
      pose proof (shr_trans _ _ _ S0 (proj1 X1)) as S1.
      assert (W0 : forall x, iswhite st0 x = iswhite st x).
      { intros x. unfold st0. rewrite iswhite_set2black. destruct (Nat.eqb_spec x o) as [->|]; [|reflexivity].
        destruct (g_col _ _ (c_gl _ _ _ _ C) o Io) as [b [Hb [Cb _]]]. unfold iswhite. rewrite Hb, Cb. reflexivity. }
      assert (G0 : gray st0 = []) by (unfold st0, set2black; rewrite gray_setcol; exact G).
      assert (N0 : nextid st0 = nextid st) by (apply (shr_nextid _ _ S0)).
      assert (Cw : cwhite st0 = cwhite st) by (unfold cwhite; rewrite N0; f_equal; apply filter_ext; exact W0).
      destruct mk.
      * destruct (propagateall_ok MC l st1 C1 (phase_shr _ _ _ Ph S1)) as [C2 [S2 G2]].
        pose proof (shr_trans _ _ _ S1 S2) as S12.
        destruct (IH (propagateall st1) true C2 (phase_shr _ _ _ Ph S12) G2) as [C3 [S3 [G3 [B3 A3]]]].
        { intros x J. apply (metatab_shr st); [apply Mt; right; exact J | exact S12]. }
        cbn zeta in *. split; [exact C3|]. split; [apply (shr_trans _ _ _ S12 S3)|]. split; [exact G3|]. split.
        -- intros _. right. pose proof (B1 eq_refl). pose proof (shr_cwhite _ _ S2). pose proof (shr_cwhite _ _ S3). lia.
        -- intros H. destruct (A3 H) as [H1 _]. discriminate.
      * destruct (A1 eq_refl) as [M1 [Gy1 [Ep1 Eh1]]].
        destruct (IH st1 ch C1 (phase_shr _ _ _ Ph S1)) as [C3 [S3 [G3 [B3 A3]]]].
        { rewrite Gy1. exact G0. }
        { intros x J. apply (metatab_shr st); [apply Mt; right; exact J | exact S1]. }
        assert (M01 : strm st st1).
        { intros x Hx. rewrite M1, W0; [reflexivity|]. rewrite (shr_kind _ _ _ S0). exact Hx. }
        cbn zeta in *. split; [exact C3|]. split; [apply (shr_trans _ _ _ S1 S3)|]. split; [exact G3|]. split.
        -- intros H. destruct (B3 H) as [A | A]; [left; exact A | right]. pose proof (shr_cwhite _ _ S1). lia.
        -- intros H. destruct (A3 H) as [H1 [H2 [H3 H4]]]. split; [exact H1|]. split; [apply (strm_shr_trans st st1); assumption|]. split.
           ++ intros x [<- | J]; [|apply H3, J]. apply (EPH_shr st1); [|exact S3 | exact H2]. intros b Hb. apply (Eh1 b Hb).
           ++ intros x J. apply H4 in J. apply in_app_or in J. destruct J as [J | J]; [right; apply in_or_app; left; exact J|].
              apply (Ep1 ltac:(discriminate)) in J. destruct J as [<- | J]; [left; reflexivity|]. right. apply in_or_app. right.
              unfold st0 in J. replace (ephemeron (set2black st o)) with (ephemeron st) in J; [exact J|].
              unfold set2black, setcol. rewrite modify_rest. reflexivity.
Qed.

Lemma CI_uneph : forall st, CI MC [] None st -> CI MC (ephemeron st) None (set_ephemeron st []).
Proof.
  intros st [T C W G].
  assert (Ls : glists (ephemeron st) (set_ephemeron st []) = glists [] st) by (unfold glists; cbn; rewrite app_nil_r; reflexivity).
  assert (S : shr st (set_ephemeron st [])) by apply shr_lists.
  constructor.
  - apply (typ_shr _ _ T S).
  - intros o ob X H Wo. destruct (C o ob X H Wo) as [A | [A | [A | A]]]; [left; exact A | right; left; exact A | destruct A |].
    destruct A as [A | [A | [A | [A _]]]].
    + right; right; right. left. exact A.
    + right; right; right. right. left. exact A.
    + right; right; right. right. right. left. exact A.
    + right; right; left. exact A.
  - intros o ob H Ho. destruct (W o ob H Ho) as [A | [M [A | [A | [A | A]]]]]; [left; exact A | discriminate | | | destruct A].
    + right. split; [exact M|]. right. left. exact A.
    + right. split; [exact M|]. right. right. left. exact A.
  - destruct G as [N Col Tab]. constructor.
    + rewrite Ls. exact N.
    + rewrite Ls. exact Col.
    + intros x I. apply Tab. cbn in I. rewrite app_nil_r in I. rewrite !in_app_iff in *. tauto.
Qed.

Lemma eph_metatab : forall st o, CI MC [] None st -> gray st = [] -> fixstr st -> In o (ephemeron st) -> metatab st o.
Proof.
  intros st o C G F I. pose proof (c_gl _ _ _ _ C) as Gl.
  assert (K : kind_of st o = Some KTable) by (apply (g_tab _ _ Gl); rewrite !in_app_iff; tauto).
  split; [exact K|]. intros ob H.
  destruct (g_col _ _ Gl o) as [b [Hb [Cb _]]]; [apply in_glists; tauto|].
  assert (W : iswhite st o = false) by (unfold iswhite; rewrite Hb, Cb; reflexivity).
  destruct (c_tc _ _ _ _ C o ob ltac:(discriminate) H W) as [A | [A | [A | A]]].
  - specialize (F o A). congruence.
  - rewrite G in A. destruct A.
  - destruct A.
  - destruct A as [[_ [A _]] | [[_ [A _]] | [[_ A] | [_ [A _]]]]]; try exact A. intros x Hx. apply A. left. exact Hx.
Qed.

Lemma converge_n_ok : forall n st, CI MC [] None st -> phase MC st -> gray st = [] -> fixstr st -> cwhite st < n ->
  CI MC [] None (converge_n n st) /\ shr st (converge_n n st) /\ gray (converge_n n st) = [] /\
  (forall o, In o (ephemeron (converge_n n st)) -> EPH (converge_n n st) o).
Proof.
  induction n as [|n IH]; intros st C Ph G F L; [lia|]. cbn [converge_n].
  assert (S0 : shr st (set_ephemeron st [])) by apply shr_lists.
  destruct (converge_pass_ok (ephemeron st) (set_ephemeron st []) false (CI_uneph st C) (phase_shr _ _ _ Ph S0) G) as [C1 [S1 [G1 [B1 A1]]]].
  { intros o I. apply (metatab_shr st); [apply (eph_metatab st o C G F I) | exact S0]. }
  destruct (converge_pass (set_ephemeron st []) (ephemeron st) false) as [st1 ch]. cbn [fst snd] in *.
  pose proof (shr_trans _ _ _ S0 S1) as S01.
  destruct ch.
  - destruct (B1 eq_refl) as [B | B]; [discriminate|].
    assert (Cw : cwhite (set_ephemeron st []) = cwhite st) by reflexivity.
    destruct (IH st1 C1 (phase_shr _ _ _ Ph S01) G1 (fixstr_shr _ _ F S01) ltac:(lia)) as [C2 [S2 [G2 E2]]].
    split; [exact C2|]. split; [apply (shr_trans _ _ _ S01 S2)|]. split; [exact G2 | exact E2].
  - destruct (A1 eq_refl) as [_ [_ [H3 H4]]]. split; [exact C1|]. split; [exact S01|]. split; [exact G1|].
    intros o I. apply H3. apply H4 in I. cbn in I. rewrite app_nil_r in I. exact I.
Qed.

Lemma convergeephemerons_ok : forall st, CI MC [] None st -> phase MC st -> gray st = [] -> fixstr st ->
  CI MC [] None (convergeephemerons st) /\ shr st (convergeephemerons st) /\ gray (convergeephemerons st) = [] /\
  (forall o, In o (ephemeron (convergeephemerons st)) -> EPH (convergeephemerons st) o).
Proof.
  intros st C Ph G F. apply converge_n_ok; auto. pose proof (cwhite_le_next st). lia.
Qed.

(** ** Clearing *)

(** Marking strings only: no list changes. *)
Definition strmark (st st' : gst) : Prop := mrel st st' /\ strm st st' /\ gray st' = gray st.

Lemma strmark_refl : forall st, strmark st st.
Proof. intros. split; [apply mrel_refl|]. split; [apply strm_refl | reflexivity]. Qed.
Lemma strmark_trans : forall a b c, strmark a b -> strmark b c -> strmark a c.
Proof.
  intros a b c [M1 [S1 G1]] [M2 [S2 G2]]. split; [apply (mrel_trans _ _ _ M1 M2)|]. split; [|congruence].
  apply (strm_trans a b c S1 S2). intros x. apply (mrel_kind _ _ _ M1).
Qed.

Lemma iscleared_strmark : forall st o, typ st -> strmark st (fst (iscleared st o)).
Proof.
  intros st o T. split; [apply (iscleared_ok st o T)|]. split; [apply (iscleared_strm st o T)|].
  destruct o as [o|]; [|reflexivity]. cbn [iscleared]. destruct (kind_of st o) as [[]|] eqn:K; try reflexivity. cbn [fst].
  unfold mark. destruct (iswhite st o) eqn:W; [|reflexivity].
  unfold kind_of in K. destruct (heap st o) as [ob|] eqn:E; [|discriminate]. inversion K as [K'].
  destruct (nextid st) as [|n]; [reflexivity|]. cbn [mark_obj]. rewrite E, K'. apply gray_setcol.
Qed.

Lemma ck_loop_ok : forall h st, typ st ->
  strmark st (fst (ck_loop st h)) /\ Forall2 esub h (snd (ck_loop st h)) /\
  (forall k v, In (k, v) (snd (ck_loop st h)) -> keynw (fst (ck_loop st h)) k).
Proof.
  induction h as [|[k v] h IH]; intros st T; cbn [ck_loop].
  - cbn. split; [apply strmark_refl|]. split; [constructor | intros k v []].
  - assert (Step : exists st1 c, (if isnil v then (st, false) else iscleared st (kobj k)) = (st1, c) /\ strmark st st1 /\
        (c = false -> v <> VNil -> keynw st1 k)).
    { destruct (isnil v) eqn:N.
      - exists st, false. split; [reflexivity|]. split; [apply strmark_refl|]. intros _ Nv. destruct v; try discriminate. congruence.
      - pose proof (iscleared_strmark st (kobj k) T) as M. destruct (iscleared_ok st (kobj k) T) as [_ [Q _]].
        destruct (iscleared st (kobj k)) as [st1 c]. exists st1, c. split; [reflexivity|]. split; [exact M|].
        intros Hc _. apply kobj_nw. apply (Q Hc). }
    destruct Step as [st1 [c [E1 [M1 Q1]]]]. rewrite E1.
    destruct (IH st1 (typ_mrel _ _ T (proj1 M1))) as [M2 [F2 K2]].
    destruct (ck_loop st1 h) as [st2 h2]. cbn [fst snd] in *.
    split; [apply (strmark_trans _ _ _ M1 M2)|]. split.
    + constructor; [|exact F2]. apply (esub_trans _ (k, if c then VNil else v)); [|apply removeentry_esub].
      split; cbn; [left; reflexivity | destruct c; [right; reflexivity | apply vsub_refl]].
    + intros k' v' [E | I]; [|apply (K2 k' v' I)].
      assert (Hc : k' = k -> c = false -> v <> VNil -> keynw st2 k').
      { intros -> Hc Nv. apply (keynw_mrel st1); [apply M2 | apply (Q1 Hc Nv)]. }
      unfold removeentry in E. destruct k as [z|b|b].
      * inversion E; subst. intros b [=].
      * destruct (if c then VNil else v) as [|z|w] eqn:Ev.
        -- inversion E; subst. intros b' [=].
        -- inversion E; subst. destruct c; [discriminate|]. apply Hc; [reflexivity | reflexivity | congruence].
        -- inversion E; subst. destruct c; [discriminate|]. apply Hc; [reflexivity | reflexivity | congruence].
      * inversion E; subst. intros b' [=].
Qed.

Lemma cv_arr_ok : forall l st, typ st ->
  strmark st (fst (cv_arr st l)) /\ Forall2 vsub l (snd (cv_arr st l)) /\
  (forall v, In v (snd (cv_arr st l)) -> valnw (fst (cv_arr st l)) v).
Proof.
  induction l as [|v l IH]; intros st T; cbn [cv_arr].
  - cbn. split; [apply strmark_refl|]. split; [constructor | intros v []].
  - pose proof (iscleared_strmark st (vobj v) T) as M1. destruct (iscleared_ok st (vobj v) T) as [_ [Q _]].
    destruct (iscleared st (vobj v)) as [st1 c]. cbn [fst snd] in *.
    destruct (IH st1 (typ_mrel _ _ T (proj1 M1))) as [M2 [F2 K2]]. destruct (cv_arr st1 l) as [st2 l2]. cbn [fst snd] in *.
    split; [apply (strmark_trans _ _ _ M1 M2)|]. split.
    + constructor; [|exact F2]. destruct c; [right; reflexivity | apply vsub_refl].
    + intros v' [E | I]; [|apply K2, I]. destruct c; subst v'; [reflexivity|].
      apply (valnw_mrel st1); [apply M2 | apply vobj_nw, Q; reflexivity].
Qed.

Lemma cv_loop_ok : forall h st, typ st ->
  strmark st (fst (cv_loop st h)) /\ Forall2 esub h (snd (cv_loop st h)) /\
  (forall k v, In (k, v) (snd (cv_loop st h)) -> valnw (fst (cv_loop st h)) v).
Proof.
  induction h as [|[k v] h IH]; intros st T; cbn [cv_loop].
  - cbn. split; [apply strmark_refl|]. split; [constructor | intros k v []].
  - pose proof (iscleared_strmark st (vobj v) T) as M1. destruct (iscleared_ok st (vobj v) T) as [_ [Q _]].
    destruct (iscleared st (vobj v)) as [st1 c]. cbn [fst snd] in *.
    destruct (IH st1 (typ_mrel _ _ T (proj1 M1))) as [M2 [F2 K2]]. destruct (cv_loop st1 h) as [st2 h2]. cbn [fst snd] in *.
    split; [apply (strmark_trans _ _ _ M1 M2)|]. split.
    + constructor; [|exact F2]. apply (esub_trans _ (k, if c then VNil else v)); [|apply removeentry_esub].
      split; cbn; [left; reflexivity | destruct c; [right; reflexivity | apply vsub_refl]].
    + intros k' v' [E | I]; [|apply (K2 k' v' I)].
      assert (V : v' = if c then VNil else v).
      { unfold removeentry in E. destruct k; try (inversion E; reflexivity). destruct (if c then VNil else v); inversion E; reflexivity. }
      destruct c; subst v'; [reflexivity|]. apply (valnw_mrel st1); [apply M2 | apply vobj_nw, Q; reflexivity].
Qed.

(** What a cleared table satisfies. *)
Definition KNW (st : gst) (o : id) : Prop := forall ob, heap st o = Some ob -> keysnw st ob.
Definition VNW (st : gst) (o : id) : Prop := forall ob, heap st o = Some ob ->
  valsnw st ob /\ forall k v, In (k, v) (o_hash ob) -> valnw st v.

Lemma KNW_shr : forall st st' o, KNW st o -> shr st st' -> KNW st' o.
Proof.
  intros st st' o H S b Hb x v I. destruct (shr_inv _ _ _ _ S Hb) as [a [Ea Sa]].
  destruct (Forall2_esub_in _ _ _ _ (os_hash _ _ Sa) I) as [k0 [v0 [I0 [E _]]]]. cbn in E.
  destruct E as [E | [y [_ [E _]]]]; [|discriminate]. subst k0. apply (shr_nw _ _ _ S), (H a Ea x v0 I0).
Qed.
Lemma VNW_shr : forall st st' o, VNW st o -> shr st st' -> VNW st' o.
Proof.
  intros st st' o H S b Hb. destruct (shr_inv _ _ _ _ S Hb) as [a [Ea Sa]]. destruct (H a Ea) as [A B]. split.
  - intros x I. apply (shr_nw _ _ _ S), A, (Forall2_vsub_in _ _ _ (os_vals _ _ Sa) I).
  - intros k v I. destruct (Forall2_esub_in _ _ _ _ (os_hash _ _ Sa) I) as [k0 [v0 [I0 [_ V]]]]. cbn in V.
    destruct V as [V | V]; [subst v0; apply (valnw_shr _ _ _ S), (B k0 v I0) | subst v; reflexivity].
Qed.

(** One table cleared; the lists stay. *)
Definition clr (st st' : gst) : Prop :=
  shr st st' /\ strm st st' /\ gray st' = gray st /\ weak st' = weak st /\ allweak st' = allweak st /\ ephemeron st' = ephemeron st /\
  twups st' = twups st /\ grayagain st' = grayagain st.

Lemma clr_refl : forall st, clr st st.
Proof. intros. split; [apply shr_refl|]. split; [apply strm_refl|]. repeat split. Qed.
Lemma clr_trans : forall a b c, clr a b -> clr b c -> clr a c.
Proof.
  intros a b c [S1 [M1 [G1 [W1 [A1 [E1 [T1 R1]]]]]]] [S2 [M2 [G2 [W2 [A2 [E2 [T2 R2]]]]]]].
  split; [apply (shr_trans _ _ _ S1 S2)|]. split; [apply (strm_shr_trans a b c S1 M1 M2)|]. repeat split; congruence.
Qed.

Lemma clr_strmark : forall st st', strmark st st' -> clr st st'.
Proof.
  intros st st' [M [S G]]. mfields M. split; [apply shr_mrel, M|]. split; [exact S|]. repeat split; assumption.
Qed.

Lemma clr_modify : forall st o f, (forall a, osub a (f a) /\ o_col (f a) = o_col a) \/ 
  (forall a, heap st o = Some a -> osub a (f a) /\ o_col (f a) = o_col a) -> clr st (modify st o f).
Proof.
  intros st o f H. assert (H' : forall a, heap st o = Some a -> osub a (f a) /\ o_col (f a) = o_col a) by (destruct H as [H | H]; auto).
  destruct (modify_fields st o f) as [F1 [F2 [F3 [F4 [F5 [F6 [F7 _]]]]]]].
  split; [apply shr_modify; intros a Ha; apply (H' a Ha)|]. split; [|repeat split; assumption].
  intros x _. apply iswhite_modify. intros a Ha. apply (H' a Ha).
Qed.

Lemma clearkeys1_ok : forall E st o, CI MC E None st -> 
  CI MC E None (clearkeys1 st o) /\ clr st (clearkeys1 st o) /\ (iswhite st o = false -> KNW (clearkeys1 st o) o).
Proof.
  intros E st o C. unfold clearkeys1. destruct (heap st o) as [ob|] eqn:Ho.
  - pose proof (c_typ _ _ _ _ C) as T. destruct (ck_loop_ok (o_hash ob) st T) as [M [F K]].
    destruct (ck_loop st (o_hash ob)) as [st1 h]. cbn [fst snd] in *.
    pose proof (CI_mrel _ _ _ _ _ C (proj1 M)) as C1.
    assert (Hs : forall a, heap st1 o = Some a -> o_hash a = o_hash ob).
    { intros a Ha. destruct (mrel_some_inv _ _ _ _ (proj1 M) Ha) as [a0 [Ea [Wa _]]]. rewrite Wa. cbn. congruence. }
    assert (Q : forall a, heap st1 o = Some a -> osub a (with_hash a h) /\ o_col (with_hash a h) = o_col a).
    { intros a Ha. split; [|reflexivity]. apply osub_hash. rewrite (Hs a Ha). exact F. }
    assert (Cl : clr st1 (sethash st1 o h)) by (apply clr_modify; right; exact Q).
    split; [apply (CI_content MC E None st1 o _ C1 Q)|]. split; [apply (clr_trans _ _ _ (clr_strmark _ _ M) Cl)|].
    intros Wo. assert (H1 : heap st1 o = Some ob) by (apply (mrel_keep _ _ _ _ (proj1 M) Ho Wo)).
    intros b Hb x v I. unfold sethash in Hb. rewrite (heap_modify_eq st1 o (fun b => with_hash b h) ob H1) in Hb. inversion Hb; subst b.
    apply (shr_nw _ _ _ (proj1 Cl)). apply (K (KyObj x) v I). reflexivity.
  - split; [exact C|]. split; [apply clr_refl|]. intros _ b Hb. congruence.
Qed.

Lemma clearbykeys_ok : forall l E st, CI MC E None st -> (forall o, In o l -> iswhite st o = false) ->
  CI MC E None (clearbykeys st l) /\ clr st (clearbykeys st l) /\ (forall o, In o l -> KNW (clearbykeys st l) o).
Proof.
  unfold clearbykeys. induction l as [|a l IH]; intros E st C W; cbn [fold_left].
  - split; [exact C|]. split; [apply clr_refl | intros o []].
  - destruct (clearkeys1_ok E st a C) as [C1 [L1 K1]].
    destruct (IH E _ C1) as [C2 [L2 K2]].
    { intros o I. apply (shr_nw _ _ _ (proj1 L1)), W. right; exact I. }
    split; [exact C2|]. split; [apply (clr_trans _ _ _ L1 L2)|].
    intros o [<- | I]; [|apply K2, I]. apply (KNW_shr (clearkeys1 st a)); [apply K1, W; left; reflexivity | apply L2].
Qed.

Lemma clearvals1_ok : forall E st o, CI MC E None st -> 
  CI MC E None (clearvals1 st o) /\ clr st (clearvals1 st o) /\ (iswhite st o = false -> VNW (clearvals1 st o) o).
Proof.
  intros E st o C. unfold clearvals1. destruct (heap st o) as [ob|] eqn:Ho.
  - pose proof (c_typ _ _ _ _ C) as T. destruct (cv_arr_ok (o_vals ob) st T) as [M1 [F1 K1]].
    destruct (cv_arr st (o_vals ob)) as [st1 l]. cbn [fst snd] in *.
    pose proof (CI_mrel _ _ _ _ _ C (proj1 M1)) as C1.
    destruct (cv_loop_ok (o_hash ob) st1 (c_typ _ _ _ _ C1)) as [M2 [F2 K2]].
    destruct (cv_loop st1 (o_hash ob)) as [st2 h]. cbn [fst snd] in *.
    pose proof (CI_mrel _ _ _ _ _ C1 (proj1 M2)) as C2. pose proof (strmark_trans _ _ _ M1 M2) as M.
    assert (Hs : forall a, heap st2 o = Some a -> o_hash a = o_hash ob /\ o_vals a = o_vals ob).
    { intros a Ha. destruct (mrel_some_inv _ _ _ _ (proj1 M) Ha) as [a0 [Ea [Wa _]]]. rewrite Wa. cbn. split; congruence. }
    set (f := fun b => with_hash (with_vals b l) h).
    assert (Q : forall a, heap st2 o = Some a -> osub a (f a) /\ o_col (f a) = o_col a).
    { intros a Ha. destruct (Hs a Ha) as [Q1 Q2]. split; [|reflexivity]. unfold f. apply (osub_trans _ (with_vals a l)).
      - apply osub_vals. rewrite Q2. exact F1.
      - apply osub_hash. cbn. rewrite Q1. exact F2. }
    assert (Cl : clr st2 (modify st2 o f)) by (apply clr_modify; right; exact Q).
    split; [apply (CI_content MC E None st2 o f C2 Q)|]. split; [apply (clr_trans _ _ _ (clr_strmark _ _ M) Cl)|].
    intros Wo. assert (H1 : heap st2 o = Some ob) by (apply (mrel_keep _ _ _ _ (proj1 M) Ho Wo)).
    intros b Hb. rewrite (heap_modify_eq st2 o f ob H1) in Hb. inversion Hb; subst b. split.
    + intros x I. apply (shr_nw _ _ _ (proj1 Cl)), (mrel_nw _ _ _ (proj1 M2)). apply (K1 (VObj x) I).
    + intros k v I. apply (valnw_shr _ _ _ (proj1 Cl)). apply (K2 k v I).
  - split; [exact C|]. split; [apply clr_refl|]. intros _ b Hb. congruence.
Qed.

Lemma clearbyvalues_ok : forall l E st, CI MC E None st -> (forall o, In o l -> iswhite st o = false) ->
  CI MC E None (clearbyvalues st l) /\ clr st (clearbyvalues st l) /\ (forall o, In o l -> VNW (clearbyvalues st l) o).
Proof.
  unfold clearbyvalues. induction l as [|a l IH]; intros E st C W; cbn [fold_left].
  - split; [exact C|]. split; [apply clr_refl | intros o []].
  - destruct (clearvals1_ok E st a C) as [C1 [L1 K1]].
    destruct (IH E _ C1) as [C2 [L2 K2]].
    { intros o I. apply (shr_nw _ _ _ (proj1 L1)), W. right; exact I. }
    split; [exact C2|]. split; [apply (clr_trans _ _ _ L1 L2)|].
    intros o [<- | I]; [|apply K2, I]. apply (VNW_shr (clearvals1 st a)); [apply K1, W; left; reflexivity | apply L2].
Qed.

Lemma glist_nw : forall E st o, gl E st -> In o (glists E st) -> iswhite st o = false.
Proof. intros E st o G I. destruct (g_col _ _ G o I) as [ob [H [C _]]]. unfold iswhite. rewrite H, C. reflexivity. Qed.

(** ** Relations every traversal keeps *)

Section Keep.
Variable R : gst -> gst -> Prop.
Hypothesis R_refl : forall st, R st st.
Hypothesis R_trans : forall a b c, R a b -> R b c -> R a c.
Hypothesis R_modify : forall st o f, R st (modify st o f).
Hypothesis R_gray : forall st g, R st (set_gray st g).
Hypothesis R_ga : forall st g, R st (set_grayagain st g).
Hypothesis R_eph : forall st g, R st (set_ephemeron st g).
Hypothesis R_weak : forall st o, R st (set_weak st (o :: weak st)).
Hypothesis R_allweak : forall st o, R st (set_allweak st (o :: allweak st)).
Hypothesis R_uvs : forall st u n, R st (set_uvs st u n).

Lemma R_setcol : forall st o c, R st (setcol st o c).
Proof. intros. apply R_modify. Qed.
Lemma R_link_gray : forall st o, R st (link_gray st o).
Proof. intros. unfold link_gray. apply (R_trans _ (set_gray st (o :: gray st))); [apply R_gray | apply R_setcol]. Qed.
Lemma R_link_grayagain : forall st o, R st (link_grayagain st o).
Proof. intros. unfold link_grayagain. apply (R_trans _ (set_grayagain st (o :: grayagain st))); [apply R_ga | apply R_setcol]. Qed.
Lemma R_link_ephemeron : forall st o, R st (link_ephemeron st o).
Proof. intros. unfold link_ephemeron. apply (R_trans _ (set_ephemeron st (o :: ephemeron st))); [apply R_eph | apply R_setcol]. Qed.
Lemma R_link_weak : forall st o, R st (link_weak st o).
Proof.
  intros. unfold link_weak. apply (R_trans _ (set_weak st (o :: weak st))); [apply R_weak | apply R_setcol].
Qed.
Lemma R_link_allweak : forall st o, R st (link_allweak st o).
Proof.
  intros. unfold link_allweak. apply (R_trans _ (set_allweak st (o :: allweak st))); [apply R_allweak | apply R_setcol].
Qed.
Lemma R_mark_meta : forall st m, R st (mark_meta st m).
Proof. intros st [t|]; cbn; [destruct (iswhite st t); [apply R_link_gray | apply R_refl] | apply R_refl]. Qed.
Lemma R_mark_obj : forall n st o, R st (mark_obj n st o).
Proof.
  induction n as [|n IH]; intros st o; cbn [mark_obj]; [apply R_refl|]. destruct (heap st o) as [ob|]; [|apply R_refl].
  assert (L : R st (set2black (mark_meta st (o_meta ob)) o)) by (apply (R_trans _ _ _ (R_mark_meta st (o_meta ob))), R_setcol).
  destruct (o_kind ob); try apply R_link_gray; try apply R_setcol.
  - destruct (o_vals ob) as [|[| |u] l]; try exact L. destruct (iswhite _ u); [apply (R_trans _ _ _ L), IH | exact L].
  - destruct (o_vals ob) as [|[| |u] l]; try exact L. destruct (iswhite _ u); [apply (R_trans _ _ _ L), IH | exact L].
Qed.
Lemma R_mark : forall st o, R st (mark st o).
Proof. intros. unfold mark. destruct (iswhite st o); [apply R_mark_obj | apply R_refl]. Qed.
Lemma R_mark_val : forall st v, R st (mark_val st v).
Proof. intros st [| |]; try apply R_refl. apply R_mark. Qed.
Lemma R_mark_key : forall st v, R st (mark_key st v).
Proof. intros st [| |]; try apply R_refl. apply R_mark. Qed.
Lemma R_fold : forall (A : Type) (f : gst -> A -> gst), (forall st a, R st (f st a)) -> forall l st, R st (fold_left f l st).
Proof. intros A f H. induction l as [|a l IH]; intros st; cbn; [apply R_refl | apply (R_trans _ _ _ (H st a)), IH]. Qed.
Lemma R_mark_vals : forall l st, R st (mark_vals st l).
Proof. intros l st. apply R_fold. apply R_mark_val. Qed.
Lemma R_iscleared : forall st o, R st (fst (iscleared st o)).
Proof. intros st [o|]; cbn; [|apply R_refl]. destruct (kind_of st o) as [[]|]; try apply R_refl. apply R_mark. Qed.
Lemma R_weakvalue_loop : forall h st hc, R st (fst (weakvalue_loop st h hc)).
Proof.
  induction h as [|[k v] h IH]; intros st hc; cbn [weakvalue_loop]; [apply R_refl|].
  destruct (isnil v); [apply IH|]. apply (R_trans _ (mark_key st k)); [apply R_mark_key|].
  destruct hc; [apply IH|]. pose proof (R_iscleared (mark_key st k) (vobj v)) as Q.
  destruct (iscleared (mark_key st k) (vobj v)) as [s c]. apply (R_trans _ _ _ Q), IH.
Qed.
Lemma R_eph_arr : forall l st mk, R st (fst (eph_arr st l mk)).
Proof.
  induction l as [|v l IH]; intros st mk; cbn [eph_arr]; [apply R_refl|]. destruct v; try apply IH.
  destruct (iswhite st o); [|apply IH]. apply (R_trans _ (mark st o)); [apply R_mark | apply IH].
Qed.
Lemma R_eph_hash : forall h st mk hc ww, R st (fst (fst (fst (eph_hash st h mk hc ww)))).
Proof.
  induction h as [|[k v] h IH]; intros st mk hc ww; cbn [eph_hash]; [apply R_refl|].
  destruct (isnil v); [apply IH|]. pose proof (R_iscleared st (kobj k)) as Q.
  destruct (iscleared st (kobj k)) as [s c]. apply (R_trans _ _ _ Q). destruct c; [apply IH|].
  destruct (valiswhite s v); [apply (R_trans _ (mark_val s v)); [apply R_mark_val | apply IH] | apply IH].
Qed.
Lemma R_sethash : forall st o h, R st (sethash st o h).
Proof. intros. apply R_modify. Qed.
Lemma R_traverseephemeron : forall st o ob, R st (fst (traverseephemeron st o ob)).
Proof.
  intros st o ob. unfold traverseephemeron. pose proof (R_eph_arr (o_vals ob) st false) as Q1.
  destruct (eph_arr st (o_vals ob) false) as [s1 m1]. pose proof (R_eph_hash (o_hash ob) s1 m1 false false) as Q2.
  destruct (eph_hash s1 (o_hash ob) m1 false false) as [[[s2 m2] hc] ww]. cbn [fst snd] in *.
  apply (R_trans _ _ _ Q1), (R_trans _ _ _ Q2), (R_trans _ _ _ (R_sethash s2 o (clean (o_hash ob)))).
  destruct (is_propagate _); [apply R_link_grayagain|]. destruct ww; [apply R_link_ephemeron|].
  destruct hc; [apply R_link_allweak | apply R_refl].
Qed.
Lemma R_traversetable : forall st o ob, R st (traversetable st o ob).
Proof.
  intros st o ob. unfold traversetable. apply (R_trans _ _ _ (R_mark_meta st (o_meta ob))).
  destruct (weakmode st ob) as [[] []].
  - apply R_link_allweak.
  - apply R_traverseephemeron.
  - unfold traverseweakvalue. pose proof (R_weakvalue_loop (o_hash ob) (mark_meta st (o_meta ob)) (negb (length (o_vals ob) =? 0))) as Q.
    destruct (weakvalue_loop (mark_meta st (o_meta ob)) (o_hash ob) (negb (length (o_vals ob) =? 0))) as [s hc]. cbn [fst] in Q.
    apply (R_trans _ _ _ Q), (R_trans _ _ _ (R_sethash s o (clean (o_hash ob)))).
    destruct (is_atomic _ && hc); [apply R_link_weak | apply R_link_grayagain].
  - unfold traversestrongtable. apply (R_trans _ _ _ (R_mark_vals (o_vals ob) _)).
    apply (R_trans _ (fold_left mark_entry (o_hash ob) (mark_vals (mark_meta st (o_meta ob)) (o_vals ob)))); [|apply R_sethash].
    apply R_fold. intros s [k v]. unfold mark_entry. cbn. destruct (isnil v); [apply R_refl|].
    apply (R_trans _ _ _ (R_mark_key s k)), R_mark_val.
Qed.
Lemma R_traverseLclosure : forall s o ob, R s (traverseLclosure s o ob).
Proof.
  intros s o ob. unfold traverseLclosure. apply (R_trans _ _ _ (R_mark_vals (o_vals ob) s)). apply R_fold.
  intros x u. unfold trav_upv. destruct (uvs x u) as [[]|]; [|apply R_mark_val | apply R_refl].
  destruct (is_atomic _); [apply R_mark_val | apply R_uvs].
Qed.
Lemma R_traverseproto : forall s o ob, R s (traverseproto s o ob).
Proof.
  intros s o ob. unfold traverseproto. apply (R_trans _ (match o_cache ob with
            | Some c => if iswhite s c then modify s o (fun b => with_cache b None) else s
            | None => s end)); [|apply R_mark_vals].
  destruct (o_cache ob) as [c|]; [|apply R_refl]. destruct (iswhite s c); [apply R_modify | apply R_refl].
Qed.
Lemma R_propagatemark_nt : forall st, (forall o g ob, gray st = o :: g -> heap st o = Some ob -> o_kind ob <> KThread) -> R st (propagatemark st).
Proof.
  intros st NT. unfold propagatemark. destruct (gray st) as [|o g]; [apply R_refl|].
  assert (Q : R st (set2black (set_gray st g) o)) by (apply (R_trans _ (set_gray st g)); [apply R_gray | apply R_setcol]).
  destruct (heap _ o) as [ob|] eqn:E; [|exact Q]. apply (R_trans _ _ _ Q).
  assert (K : o_kind ob <> KThread).
  { rewrite heap_set2black, Nat.eqb_refl in E. cbn in E. destruct (heap st o) as [b|] eqn:Eb; [|discriminate]. inversion E; subst ob.
    cbn. apply (NT o g b eq_refl Eb). }
  clear NT E Q.
  generalize (set2black (set_gray st g) o) as s. intros s. destruct (o_kind ob); try apply R_refl; try congruence.
  - apply R_traversetable.
  - apply R_traverseLclosure.
  - apply R_mark_vals.
  - apply R_traverseproto.
Qed.

Hypothesis R_tw : forall st l, R st (set_twups st l).

Lemma R_propagatemark : forall st, R st (propagatemark st).
Proof.
  intros st. unfold propagatemark. destruct (gray st) as [|o g]; [apply R_refl|].
  assert (Q : R st (set2black (set_gray st g) o)) by (apply (R_trans _ (set_gray st g)); [apply R_gray | apply R_setcol]).
  destruct (heap _ o) as [ob|]; [|exact Q]. apply (R_trans _ _ _ Q).
  generalize (set2black (set_gray st g) o) as s. clear Q. intros s. destruct (o_kind ob); try apply R_refl.
  - apply R_traversetable.
  - apply R_traverseLclosure.
  - apply R_mark_vals.
  - apply R_traverseproto.
  - unfold traversethread.
    set (s1 := if is_propagate (gcs s) then link_grayagain s o else s).
    assert (Q1 : R s s1) by (unfold s1; destruct (is_propagate _); [apply R_link_grayagain | apply R_refl]).
    apply (R_trans _ _ _ Q1), (R_trans _ _ _ (R_mark_vals (firstn (o_top ob) (o_vals ob)) s1)).
    set (s2 := fold_left _ (o_open ob) _).
    assert (Q2 : R (mark_vals s1 (firstn (o_top ob) (o_vals ob))) s2) by (apply R_fold; intros; apply R_mark_val).
    apply (R_trans _ _ _ Q2). destruct (is_atomic _); [|apply R_refl].
    match goal with |- context [modify s2 o ?f] => apply (R_trans _ (modify s2 o f)); [apply R_modify|] end.
    destruct (existsb _ _); [apply R_refl|]. destruct (o_open ob); [apply R_refl | apply R_tw].
Qed.
Lemma R_propagateall : forall st, R st (propagateall st).
Proof.
  intros st. unfold propagateall. generalize (nextid st) as n. intros n. revert st. induction n as [|n IH]; intros st; cbn; [apply R_refl|].
  destruct (gray st); [apply R_refl|]. apply (R_trans _ _ _ (R_propagatemark st)), IH.
Qed.
Lemma R_converge_pass : forall l st ch, R st (fst (converge_pass st l ch)).
Proof.
  induction l as [|o l IH]; intros st ch; cbn [converge_pass]; [apply R_refl|].
  apply (R_trans _ (set2black st o)); [apply R_setcol|]. destruct (heap _ o) as [ob|]; [|apply IH].
  pose proof (R_traverseephemeron (set2black st o) o ob) as Q. destruct (traverseephemeron (set2black st o) o ob) as [s m]. cbn in Q.
  apply (R_trans _ _ _ Q). destruct m; [|apply IH]. apply (R_trans _ _ _ (R_propagateall s)), IH.
Qed.
Lemma R_converge : forall st, R st (convergeephemerons st).
Proof.
  intros st. unfold convergeephemerons. generalize (S (nextid st)) as n. intros n. revert st. induction n as [|n IH]; intros st; cbn [converge_n]; [apply R_refl|].
  apply (R_trans _ (set_ephemeron st [])); [apply R_eph|].
  pose proof (R_converge_pass (ephemeron st) (set_ephemeron st []) false) as Q.
  destruct (converge_pass (set_ephemeron st []) (ephemeron st) false) as [s ch]. cbn in Q. apply (R_trans _ _ _ Q).
  destruct ch; [apply IH | apply R_refl].
Qed.

End Keep.

(** The lists 'weak' and 'allweak' only grow at the front. *)
Definition sfx (st st' : gst) : Prop :=
  (exists l, weak st' = l ++ weak st) /\ (exists l, allweak st' = l ++ allweak st).

Lemma sfx_refl : forall st, sfx st st.
Proof. intros. split; exists []; reflexivity. Qed.
Lemma sfx_trans : forall a b c, sfx a b -> sfx b c -> sfx a c.
Proof.
  intros a b c [[l1 W1] [l2 A1]] [[l3 W2] [l4 A2]]. split; [exists (l3 ++ l1); rewrite W2, W1, app_assoc; reflexivity|].
  exists (l4 ++ l2). rewrite A2, A1, app_assoc. reflexivity.
Qed.
Lemma sfx_eq : forall st st', weak st' = weak st -> allweak st' = allweak st -> sfx st st'.
Proof. intros st st' W A. split; exists []; [rewrite W | rewrite A]; reflexivity. Qed.
Lemma sfx_propagateall : forall st, sfx st (propagateall st).
Proof.
  apply R_propagateall; try (intros; apply sfx_eq; reflexivity); try apply sfx_refl; try apply sfx_trans.
  - intros. apply sfx_eq; rewrite modify_rest; reflexivity.
  - intros. split; [exists [o] | exists []]; reflexivity.
  - intros. split; [exists [] | exists [o]]; reflexivity.
Qed.
Lemma sfx_converge : forall st, sfx st (convergeephemerons st).
Proof.
  apply R_converge; try (intros; apply sfx_eq; reflexivity); try apply sfx_refl; try apply sfx_trans.
  - intros. apply sfx_eq; rewrite modify_rest; reflexivity.
  - intros. split; [exists [o] | exists []]; reflexivity.
  - intros. split; [exists [] | exists [o]]; reflexivity.
Qed.

(** Only traversing a thread changes 'twups'. *)
Definition twe (st st' : gst) : Prop := twups st' = twups st.
Lemma twe_modify : forall st o f, twe st (modify st o f).
Proof. intros. unfold twe. rewrite modify_rest. reflexivity. Qed.

Lemma twups_propagatemark : forall st, incl (twups (propagatemark st)) (twups st ++ firstn 1 (gray st)).
Proof.
  intros st. destruct (gray st) as [|o g] eqn:G.
  - unfold propagatemark. rewrite G. cbn. rewrite app_nil_r. apply incl_refl.
  - destruct (heap st o) as [ob|] eqn:E.
    + destruct (o_kind ob) eqn:K.
      8: {
        unfold propagatemark. rewrite G. set (s := set2black (set_gray st g) o).
        assert (Hs : heap s o = Some (with_col ob Black)) by (unfold s; rewrite heap_set2black, Nat.eqb_refl; cbn; rewrite E; reflexivity).
        rewrite Hs. cbn [o_kind with_col]. rewrite K. unfold traversethread.
        set (s1 := if is_propagate (gcs s) then link_grayagain s o else s).
        assert (T0 : twe st s) by (unfold s, twe, set2black, setcol; rewrite modify_rest; reflexivity).
        assert (T1 : twe s s1) by (unfold s1; destruct (is_propagate _); [unfold twe, link_grayagain, setcol; rewrite modify_rest; reflexivity | reflexivity]).
        assert (Tm : forall x v, twe x (mark_val x v)).
        { intros x v. apply (R_mark_val twe); try reflexivity; [intros a b c H1 H2; unfold twe in *; congruence | apply twe_modify]. }
        assert (Tf : forall (A : Type) (f : gst -> A -> gst), (forall x a, twe x (f x a)) -> forall l x, twe x (fold_left f l x)).
        { intros A f Hf. induction l as [|a l IH]; intros x; cbn; [reflexivity|]. unfold twe in *. rewrite IH, Hf. reflexivity. }
        set (s2 := mark_vals s1 _). assert (T2 : twe s1 s2) by (apply Tf, Tm).
        set (s3 := fold_left _ (o_open _) s2). assert (T3 : twe s2 s3) by (apply Tf; intros; apply Tm).
        unfold twe in *. destruct (is_atomic _); [|rewrite T3, T2, T1, T0; apply incl_appl, incl_refl].
        match goal with |- context [modify s3 o ?f] => set (s4 := modify s3 o f) end.
        assert (T4 : twups s4 = twups s3) by apply twe_modify.
        destruct (existsb _ _); [rewrite T4, T3, T2, T1, T0; apply incl_appl, incl_refl|].
        destruct (o_open _); cbn [twups set_twups]; rewrite T4, T3, T2, T1, T0; [apply incl_appl, incl_refl|].
        cbn. intros x [<- | I]; apply in_or_app; [right; left; reflexivity | left; exact I]. }
      all: replace (twups (propagatemark st)) with (twups st); [apply incl_appl, incl_refl|]; symmetry;
        apply (R_propagatemark_nt twe); try reflexivity; [intros a b c H1 H2; unfold twe in *; congruence | apply twe_modify |];
        intros o' g' ob' Eg Eo; rewrite G in Eg; inversion Eg; subst; rewrite E in Eo; inversion Eo; subst; rewrite K; discriminate.
    + replace (twups (propagatemark st)) with (twups st); [apply incl_appl, incl_refl|]; symmetry.
      apply (R_propagatemark_nt twe); try reflexivity; [intros a b c H1 H2; unfold twe in *; congruence | apply twe_modify |].
      intros o' g' ob' Eg Eo. rewrite G in Eg. inversion Eg; subst. congruence.
Qed.

(** Threads in 'twups' are marked. *)
Definition twnw (st : gst) : Prop := forall o, In o (twups st) -> hnw st o.

Lemma twnw_step : forall st st', twnw st -> shr st st' -> twups st' = twups st -> twnw st'.
Proof. intros st st' H S T o I. rewrite T in I. apply (hnw_shr st); [apply H, I | exact S]. Qed.

Lemma twnw_propagate_n : forall n m E st, CI m E None st -> phase m st -> twnw st -> twnw (propagate_n n st).
Proof.
  induction n as [|n IH]; intros m E st C Ph H; cbn [propagate_n]; [exact H|].
  destruct (gray st) as [|o g] eqn:G; [exact H|].
  destruct (propagatemark_ok m E st C Ph ltac:(rewrite G; discriminate)) as [C1 [S1 _]].
  apply (IH m E); [exact C1 | apply (phase_shr _ _ _ Ph S1) |].
  intros x I. apply twups_propagatemark in I. rewrite G in I. cbn in I. apply in_app_or in I. apply (hnw_shr st); [|exact S1].
  destruct I as [I | [<- | []]]; [apply H, I|]. split.
  { destruct (g_col _ _ (c_gl _ _ _ _ C) o) as [ob [Hb _]]; [apply in_glists; left; rewrite G; left; reflexivity | congruence]. }
  apply (glist_nw E st o (c_gl _ _ _ _ C)). apply in_glists. left. rewrite G. left. reflexivity.
Qed.

Lemma twnw_converge_pass : forall l st ch, CI MC l None st -> phase MC st -> gray st = [] -> (forall o, In o l -> metatab st o) ->
  twnw st -> twnw (fst (converge_pass st l ch)).
Proof.
  induction l as [|o l IH]; intros st ch C Ph G Mt H; cbn [converge_pass]; [exact H|].
  assert (Io : In o (glists (o :: l) st)) by (apply in_glists; do 5 right; left; reflexivity).
  destruct (pop_pre MC (o :: l) st o st l C Ph) as [ob [P [S0 L0]]]; try reflexivity.
  + apply shr_refl.
  + exists (gray st ++ grayagain st ++ weak st ++ allweak st ++ ephemeron st), l.
    unfold glists. repeat rewrite <- app_assoc. split; reflexivity.
  + auto.
  + apply incl_refl.
  + intros x n [J | J]; [congruence | exact J].
  + exact Io.
  + set (st0 := set2black st o) in *. rewrite (p_heap _ _ _ _ _ P).
    pose proof (metatab_shr _ _ o (Mt o (or_introl eq_refl)) S0) as [K0 M0].
    assert (K : o_kind ob = KTable) by (unfold kind_of in K0; rewrite (p_heap _ _ _ _ _ P) in K0; congruence).
    destruct (traverseephemeron_ok MC l st0 o ob P K (M0 ob (p_heap _ _ _ _ _ P))) as [[C1 X1] [_ A1]].
    assert (T0 : twups st0 = twups st) by apply twe_modify.
    assert (T1 : twups (fst (traverseephemeron st0 o ob)) = twups st0).
    { apply (R_traverseephemeron twe); try reflexivity; [intros a b c H1 H2; unfold twe in *; congruence | apply twe_modify]. }
    destruct (traverseephemeron st0 o ob) as [st1 mk]. cbn [fst snd] in *.
    pose proof (shr_trans _ _ _ S0 (proj1 X1)) as S1.
    assert (H1 : twnw st1) by (apply (twnw_step st st1 H S1); congruence).
    destruct mk.
    * destruct (propagateall_ok MC l st1 C1 (phase_shr _ _ _ Ph S1)) as [C2 [S2 G2]].
      pose proof (shr_trans _ _ _ S1 S2) as S12.
      apply IH; [exact C2 | apply (phase_shr _ _ _ Ph S12) | exact G2 | |].
      -- intros x J. apply (metatab_shr st); [apply Mt; right; exact J | exact S12].
      -- apply (twnw_propagate_n (nextid st1) MC l); [exact C1 | apply (phase_shr _ _ _ Ph S1) | exact H1].
    * destruct (A1 eq_refl) as [_ [Gy1 _]].
      apply IH; [exact C1 | apply (phase_shr _ _ _ Ph S1) | | | exact H1].
      -- rewrite Gy1. unfold st0, set2black. rewrite gray_setcol. exact G.
      -- intros x J. apply (metatab_shr st); [apply Mt; right; exact J | exact S1].
Qed.

Lemma twnw_converge : forall st, CI MC [] None st -> phase MC st -> gray st = [] -> fixstr st -> twnw st -> twnw (convergeephemerons st).
Proof.
  intros st. unfold convergeephemerons. generalize (S (nextid st)) as n. intros n. revert st.
  induction n as [|n IH]; intros st C Ph G F H; cbn [converge_n]; [exact H|].
  assert (S0 : shr st (set_ephemeron st [])) by apply shr_lists.
  assert (Mt : forall o, In o (ephemeron st) -> metatab (set_ephemeron st []) o).
  { intros o I. apply (metatab_shr st); [apply (eph_metatab st o C G F I) | exact S0]. }
  destruct (converge_pass_ok (ephemeron st) (set_ephemeron st []) false (CI_uneph st C) (phase_shr _ _ _ Ph S0) G Mt) as [C1 [S1 [G1 _]]].
  pose proof (twnw_converge_pass (ephemeron st) (set_ephemeron st []) false (CI_uneph st C) (phase_shr _ _ _ Ph S0) G Mt H) as H1.
  destruct (converge_pass (set_ephemeron st []) (ephemeron st) false) as [st1 ch]. cbn [fst snd] in *.
  pose proof (shr_trans _ _ _ S0 S1) as S01.
  destruct ch; [|exact H1]. apply IH; [exact C1 | apply (phase_shr _ _ _ Ph S01) | exact G1 | apply (fixstr_shr _ _ F S01) | exact H1].
Qed.

Lemma upto_in : forall l orig n x, l = n ++ orig -> In x l -> In x (upto l orig) \/ In x orig.
Proof.
  intros l orig n x -> I. unfold upto. rewrite app_length. replace (length n + length orig - length orig) with (length n) by lia.
  rewrite firstn_app, Nat.sub_diag, firstn_all. cbn. rewrite app_nil_r. apply in_app_or in I. exact I.
Qed.
