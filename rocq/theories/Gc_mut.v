(** The stores of the interpreter keep the invariant. *)
From Coq Require Import ZArith List Bool Arith Lia Permutation.
From Verif Require Import Base Gc_model Gc_spec Gc_facts Gc_tri Gc_trav Gc_prop Gc_atomic Gc_fin Gc_core Gc_mark Gc_sweep Gc_inv.
Import ListNotations.
Local Open Scope nat_scope.

(** The invariant while object [ex] is being changed. *)
Definition PhaseX (ex : option id) (st : gst) : Prop :=
  match gcs st with
  | GCSpropagate | GCSenteratomic => MarkX ex st
  | GCSatomic => False
  | _ => Swp st
  end.
Definition InvX (ex : option id) (st : gst) : Prop := Core st /\ Lists st /\ PhaseX ex st.

Lemma PhaseX_cases : forall ex st, PhaseX ex st -> (keepinvariant st = true /\ MarkX ex st) \/ (keepinvariant st = false /\ Swp st).
Proof. intros ex st P. unfold PhaseX in P. unfold keepinvariant. destruct (gcs st); auto; destruct P. Qed.
Lemma PhaseX_mark : forall ex st, gcs st <> GCSatomic -> keepinvariant st = true -> MarkX ex st -> PhaseX ex st.
Proof. intros ex st G K M. unfold PhaseX. unfold keepinvariant in K. destruct (gcs st); try discriminate; auto. Qed.
Lemma PhaseX_swp : forall ex st, keepinvariant st = false -> Swp st -> PhaseX ex st.
Proof. intros ex st K M. unfold PhaseX. unfold keepinvariant in K. destruct (gcs st); try discriminate; auto. Qed.
Lemma PhaseX_na : forall ex st, PhaseX ex st -> gcs st <> GCSatomic.
Proof. intros ex st P G. unfold PhaseX in P. rewrite G in P. exact P. Qed.
Lemma keep_gcs : forall st st', gcs st' = gcs st -> keepinvariant st' = keepinvariant st.
Proof. intros st st' G. unfold keepinvariant. rewrite G. reflexivity. Qed.

Lemma InvX_ex : forall o st, Inv st -> InvX (Some o) st.
Proof.
  intros o st [C [L P]]. split; [exact C|]. split; [exact L|]. unfold PhaseX, Phase in *. destruct (gcs st); auto; apply MarkX_ex; exact P.
Qed.

(** What is known of the object that was changed: if it has been traversed, its
    references are marked, except possibly those in [P]. *)
Definition fexc (st : gst) (ob : obj) (P : id -> Prop) : Prop :=
  o_kind ob <> KThread /\ (forall b, oref ob b -> P b \/ iswhite st b = false) /\ (forall u, In u (o_upv ob) -> openok MA st u).
Definition PX (st : gst) (o : id) (P : id -> Prop) : Prop :=
  keepinvariant st = true -> forall ob, heap st o = Some ob ->
    (o_col ob = Black -> fexc st ob P) /\ (In o (allweak st) -> metanw st ob).
Definition nobody (b : id) : Prop := False.

Lemma InvX_undo : forall o st, InvX (Some o) st -> PX st o nobody -> Inv st.
Proof.
  intros o st [C [L P]] X. split; [exact C|]. split; [exact L|]. destruct (PhaseX_cases _ _ P) as [[K M] | [K S]].
  - assert (M0 : MarkX None st).
    { apply (Mark_undo o st M).
      - intros ob H B. destruct (X K ob H) as [Q _]. destruct (Q B) as [Q1 [Q2 Q3]]. split; [intros T; congruence|]. split; [|exact Q3].
        intros b R. destruct (Q2 b R) as [[] | W]. exact W.
      - intros ob H I. destruct (X K ob H) as [_ Q]. apply Q, I. }
    unfold Phase. unfold PhaseX in P. destruct (gcs st); auto; destruct P.
  - unfold Phase. unfold keepinvariant in K. destruct (gcs st); try discriminate; exact S.
Qed.

Lemma InvX_modify : forall o f st, InvX (Some o) st -> (forall ob, heap st o = Some ob -> okmod st o ob (f ob) /\ o_fin (f ob) = o_fin ob) ->
  (forall b, o_col (f b) = o_col b) ->
  (forall ob m, heap st o = Some ob -> o_meta (f ob) = Some m -> kind_of st m = Some KTable) ->
  InvX (Some o) (modify st o f).
Proof.
  intros o f st [C [L P]] H Hc Hm. split; [apply (Core_modify st o f C); intros ob Ho; apply (H ob Ho)|].
  split; [apply (Lists_shape st _ L), shape_modify; intros ob Ho; apply (H ob Ho)|].
  assert (G : gcs (modify st o f) = gcs st) by apply modify_all. destruct (PhaseX_cases _ _ P) as [[K M] | [K S]].
  - apply PhaseX_mark; [rewrite G; apply (PhaseX_na _ _ P) | rewrite (keep_gcs _ _ G); exact K|]. apply (MarkX_modify o f st M).
    intros ob Ho. destruct (H ob Ho) as [Q _]. split; [apply (m_kind _ _ _ _ Q)|]. split; [apply (m_col _ _ _ _ Q)|]. split; [apply (m_kwf _ _ _ _ Q)|].
    split; [intros m; apply (Hm ob m Ho)|]. rewrite (m_open _ _ _ _ Q). auto.
  - apply PhaseX_swp; [rewrite (keep_gcs _ _ G); exact K|]. apply Swp_modify; assumption.
Qed.

(** Knowledge about the object before any change. *)
Lemma Inv_PX : forall o st, Inv st -> PX st o nobody.
Proof.
  intros o st [C [L P]] K ob H. assert (M : MarkX None st).
  { unfold Phase in P. unfold keepinvariant in K. destruct (gcs st); try discriminate; auto; destruct P. }
  split.
  - intros B. pose proof (Mark_black st o ob M (fixstr_core _ C) H B) as [Q1 [Q2 Q3]]. split; [intros T; apply (Q1 T); reflexivity|].
    split; [intros b R; right; apply Q2, R | exact Q3].
  - intros I. apply (Mark_allweak st o ob M (fixstr_core _ C) H I).
Qed.

Lemma modify_white : forall st o f x, (forall b, o_col (f b) = o_col b) -> iswhite (modify st o f) x = iswhite st x.
Proof.
  intros st o f x Hf. unfold iswhite. rewrite heap_modify. destruct (Nat.eqb_spec x o) as [->|]; [|reflexivity].
  destruct (heap st o); cbn; [rewrite Hf|]; reflexivity.
Qed.
Lemma modify_black : forall st o f x, (forall b, o_col (f b) = o_col b) -> isblack (modify st o f) x = isblack st x.
Proof.
  intros st o f x Hf. unfold isblack. rewrite heap_modify. destruct (Nat.eqb_spec x o) as [->|]; [|reflexivity].
  destruct (heap st o); cbn; [rewrite Hf|]; reflexivity.
Qed.
Lemma modify_kind : forall st o f x, (forall b, heap st o = Some b -> o_kind (f b) = o_kind b) -> kind_of (modify st o f) x = kind_of st x.
Proof.
  intros st o f x Hf. unfold kind_of. rewrite heap_modify. destruct (Nat.eqb_spec x o) as [->|]; [|reflexivity].
  destruct (heap st o); cbn; [rewrite Hf|]; reflexivity.
Qed.

Lemma PX_modify : forall st o f (P Q : id -> Prop), PX st o P -> (forall b, o_col (f b) = o_col b) ->
  (forall ob, heap st o = Some ob -> o_kind (f ob) = o_kind ob /\
     (keepinvariant st = true -> isblack st o = true -> forall b, oref (f ob) b -> oref ob b \/ Q b \/ iswhite st b = false) /\
     (forall u, In u (o_upv (f ob)) -> In u (o_upv ob)) /\
     (keepinvariant st = true -> In o (allweak st) -> forall m, o_meta (f ob) = Some m -> o_meta ob = Some m \/ iswhite st m = false)) ->
  (forall b, P b -> Q b) -> PX (modify st o f) o Q.
Proof.
  intros st o f P Q X Hf H PQ K ob' H'. destruct (heap st o) as [ob|] eqn:Ho.
  2: { rewrite heap_modify, Nat.eqb_refl, Ho in H'. discriminate. }
  rewrite (heap_modify_eq st o f ob Ho) in H'. inversion H'; subst ob'. clear H'.
  assert (Fl : keepinvariant st = true /\ allweak (modify st o f) = allweak st /\ uvs (modify st o f) = uvs st).
  { destruct (modify_all st o f) as [_ [E2 [_ [_ [E5 _]]]]]. destruct (modify_fields st o f) as [_ [_ [_ [_ [E4 _]]]]].
    split; [rewrite <- (keep_gcs _ _ E5); exact K | auto]. }
  destruct Fl as [K0 [Ea Eu]]. destruct (X K0 ob Ho) as [X1 X2]. destruct (H ob eq_refl) as [H1 [H2 [H3 H4]]]. split.
  - rewrite Hf. intros B. destruct (X1 B) as [Y1 [Y2 Y3]].
    assert (Bo : isblack st o = true) by (unfold isblack; rewrite Ho, B; reflexivity).
    split; [rewrite H1; exact Y1|]. split.
    + intros b R. rewrite modify_white by exact Hf. destruct (H2 K0 Bo b R) as [Z | Z]; [|exact Z]. destruct (Y2 b Z); auto.
    + intros u I. specialize (Y3 u (H3 u I)). unfold openok in *. rewrite Eu. destruct (uvs st u) as [[]|]; auto.
      unfold valnw, valiswhite in *. destruct v; auto. rewrite modify_white by exact Hf. exact Y3.
  - rewrite Ea. intros I m Hm. rewrite modify_white by exact Hf. destruct (H4 K0 I m Hm) as [Z | Z]; [apply (X2 I m Z) | exact Z].
Qed.

Lemma PX_thread : forall st o f (P Q : id -> Prop), PX st o P -> (forall b, o_col (f b) = o_col b) ->
  (forall ob, heap st o = Some ob -> o_kind ob = KThread /\ o_meta (f ob) = o_meta ob) -> PX (modify st o f) o Q.
Proof.
  intros st o f P Q X Hf H K ob' H'. destruct (heap st o) as [ob|] eqn:Ho.
  2: { rewrite heap_modify, Nat.eqb_refl, Ho in H'. discriminate. }
  rewrite (heap_modify_eq st o f ob Ho) in H'. inversion H'; subst ob'. clear H'.
  assert (Fl : keepinvariant st = true /\ allweak (modify st o f) = allweak st).
  { destruct (modify_all st o f) as [_ [E2 [_ [_ [E5 _]]]]]. destruct (modify_fields st o f) as [_ [_ [_ [_ [E4 _]]]]].
    split; [rewrite <- (keep_gcs _ _ E5); exact K | auto]. }
  destruct Fl as [K0 Ea]. destruct (X K0 ob Ho) as [X1 X2]. destruct (H ob eq_refl) as [H1 H2]. split.
  - rewrite Hf. intros B. destruct (X1 B) as [Y1 _]. congruence.
  - rewrite Ea. intros I m Hm. rewrite modify_white by exact Hf. apply (X2 I m). congruence.
Qed.

(** ** Barriers *)

Lemma nonstr_notfixed : forall st o k, Core st -> kind_of st o = Some k -> k <> KStr -> ~ In o (fixedgc st).
Proof. intros st o k C K N I. destruct (q_fix _ C o I) as [Q _]. congruence. Qed.

Lemma Core_typ : forall ex st, Core st -> MarkX ex st -> typ st.
Proof. intros ex st C M. apply (c_typ _ _ _ _ (mk_ci _ _ M)). Qed.

Lemma InvX_mrel : forall ex st st', InvX ex st -> keepinvariant st = true -> mrel st st' -> InvX ex st'.
Proof.
  intros ex st st' [C [L P]] K M. destruct (PhaseX_cases _ _ P) as [[_ X] | [K' _]]; [|congruence].
  destruct (Core_mrel st st' C (mk_cw _ _ X) M) as [C' _]. split; [exact C'|]. split; [apply (Lists_shape st _ L), shape_shr, shr_mrel, M|].
  assert (G : gcs st' = gcs st) by (pose proof (mrel_fields _ _ M) as F; decompose [and] F; assumption).
  apply PhaseX_mark; [rewrite G; apply (PhaseX_na _ _ P) | rewrite (keep_gcs _ _ G); exact K|]. apply (MarkX_mrel ex st st' X M).
Qed.

Lemma PX_mrel : forall st st' o P Q, PX st o P -> mrel st st' -> iswhite st o = false \/ heap st o = None \/ MarkX None st' ->
  (forall b, P b -> Q b \/ (isblack st o = true -> iswhite st' b = false)) -> iswhite st o = false -> PX st' o Q.
Proof.
  intros st st' o P Q X M _ PQ Wo K ob' H'. pose proof (mrel_fields _ _ M) as F. decompose [and] F. clear F.
  destruct (mrel_some_inv _ _ _ _ M H') as [ob [Ho [E Cl]]].
  assert (Eob : ob' = ob).
  { pose proof (mrel_keep _ _ _ _ M Ho Wo) as Q1. congruence. }
  subst ob'. clear E Cl. destruct (X (eq_trans (eq_sym (keep_gcs st st' ltac:(assumption))) K) ob Ho) as [X1 X2]. split.
  - intros B. destruct (X1 B) as [Y1 [Y2 Y3]]. split; [exact Y1|].
    assert (Bo : isblack st o = true) by (unfold isblack; rewrite Ho, B; reflexivity). split.
    + intros b R. destruct (Y2 b R) as [Z | Z]; [destruct (PQ b Z) as [Z1 | Z1]; [left; exact Z1 | right; apply Z1, Bo] | right; apply (mrel_nw _ _ _ M Z)].
    + intros u I. specialize (Y3 u I). unfold openok in *. replace (uvs st') with (uvs st) by congruence. destruct (uvs st u) as [[]|]; auto.
      apply (valnw_mrel _ _ _ M Y3).
  - replace (allweak st') with (allweak st) by congruence. intros I m Hm. apply (mrel_nw _ _ _ M), (X2 I m Hm).
Qed.

Lemma MarkX_kind_white : forall st o, heap st o <> None -> isblack st o = true -> iswhite st o = false.
Proof. intros st o _ B. apply black_nw, B. Qed.

Lemma barrier_ok : forall st o v P Q, InvX (Some o) st -> PX st o P -> alive st o -> ~ In o (fixedgc st) ->
  (forall b, P b -> Q b \/ b = v) -> InvX (Some o) (barrier st o v) /\ PX (barrier st o v) o Q.
Proof.
  intros st o v P Q I X A NF PQ. pose proof I as [C [L Ph]]. unfold barrier.
  destruct (isblack st o) eqn:B; cbn [andb].
  2: { split; [exact I|]. intros K ob H. destruct (X K ob H) as [_ X2]. split; [|exact X2]. intros Cx. unfold isblack in B. rewrite H, Cx in B. discriminate. }
  destruct (iswhite st v) eqn:Wv.
  2: { split; [exact I|]. intros K ob H. destruct (X K ob H) as [X1 X2]. split; [|exact X2]. intros Cx. destruct (X1 Cx) as [Y1 [Y2 Y3]].
       split; [exact Y1|]. split; [|exact Y3]. intros b R. destruct (Y2 b R) as [Z | Z]; [|auto]. destruct (PQ b Z) as [Z1 | ->]; auto. }
  destruct (PhaseX_cases _ _ Ph) as [[K M] | [K S]]; rewrite K.
  - destruct (mark_obj_ok (nextid st) st v (Core_typ _ _ C M) Wv (cwhite_le_next st)) as [R Nw].
    split; [apply (InvX_mrel _ _ _ I K R)|].
    apply (PX_mrel st _ o P Q X R); [left; apply black_nw, B | | apply black_nw, B]. intros b Pb. destruct (PQ b Pb) as [Z | ->]; auto.
  - destruct (setcol_fields st o (White (cw st))) as [E1 [E2 [E3 [E4 [E5 [E6 [E7 [E8 [E9 [E10 _]]]]]]]]]]. fold (makewhite st o) in *.
    split.
    + split; [apply Core_makewhite; auto|]. split; [apply (Lists_shape st _ L), shape_setcol|].
      apply PhaseX_swp; [rewrite (keep_gcs st _ E5); exact K|]. apply (Swp_keep st _ S); try assumption.
      intros x b Hb. unfold makewhite in Hb. rewrite heap_setcol in Hb. destruct (Nat.eqb_spec x o) as [->|]; [|right; eauto].
      destruct (heap st o); [|discriminate]. cbn in Hb. inversion Hb. left. reflexivity.
    + intros K'. rewrite (keep_gcs st _ E5) in K'. congruence.
Qed.

Lemma back_ok : forall st o v P Q k, InvX (Some o) st -> PX st o P -> alive st o -> kind_of st o = Some k -> linkable k ->
  (forall b, P b -> Q b \/ b = v) ->
  InvX (Some o) (barrierback st o v) /\ PX (barrierback st o v) o Q /\
  (forall x, alive (barrierback st o v) x <-> alive st x) /\ (forall x, kind_of (barrierback st o v) x = kind_of st x) /\
  (forall x, option_map (fun b => with_col b Gray) (heap (barrierback st o v) x) = option_map (fun b => with_col b Gray) (heap st x)).
Proof.
  intros st o v P Q k I X A Kd Lk PQ. pose proof I as [C [L Ph]]. destruct (alive_kind st o k Kd) as [ob [Ho Ko]]. subst k.
  assert (Same : InvX (Some o) st /\ PX st o Q -> InvX (Some o) st /\ PX st o Q /\ (forall x, alive st x <-> alive st x) /\ (forall x, kind_of st x = kind_of st x) /\
     (forall x, option_map (fun b => with_col b Gray) (heap st x) = option_map (fun b => with_col b Gray) (heap st x))) by (intros [Z1 Z2]; split; [exact Z1|]; split; [exact Z2|]; split; [reflexivity | split; reflexivity]).
  unfold barrierback.
  destruct (isblack st o) eqn:B; cbn [andb].
  2: { apply Same. split; [exact I|]. intros K ob' H. destruct (X K ob' H) as [_ X2]. split; [|exact X2]. intros Cx. unfold isblack in B. rewrite H, Cx in B. discriminate. }
  destruct (iswhite st v) eqn:Wv.
  2: { apply Same. split; [exact I|]. intros K ob' H. destruct (X K ob' H) as [X1 X2]. split; [|exact X2]. intros Cx. destruct (X1 Cx) as [Y1 [Y2 Y3]].
       split; [exact Y1|]. split; [|exact Y3]. intros b R. destruct (Y2 b R) as [Z | Z]; [|auto]. destruct (PQ b Z) as [Z1 | ->]; auto. }
  pose proof (setcol_fields (set_grayagain st (o :: grayagain st)) o Gray) as Fl. fold (link_grayagain st o) in Fl.
  destruct Fl as [E1 [E2 [E3 [E4 [E5 [E6 [E7 [E8 [E9 [E10 _]]]]]]]]]].
  assert (Hh : forall x, heap (link_grayagain st o) x = if Nat.eqb x o then Some (with_col ob Gray) else heap st x).
  { intros x. unfold link_grayagain. rewrite heap_setcol. change (heap (set_grayagain st (o :: grayagain st))) with (heap st). rewrite Ho. reflexivity. }
  assert (Bk : o_col ob = Black) by (unfold isblack in B; rewrite Ho in B; destruct (o_col ob); congruence).
  split; [|split; [|split; [|split]]].
  - split; [|split].
    + unfold link_grayagain. apply Core_setcol.
      * apply (Core_lists st _ C); reflexivity.
      * left. exact A.
      * discriminate.
      * discriminate.
    + apply (Lists_shape st _ L). apply (shape_trans _ (set_grayagain st (o :: grayagain st))); [apply shape_same; reflexivity | apply shape_setcol].
    + destruct (PhaseX_cases _ _ Ph) as [[K M] | [K S]].
      * apply PhaseX_mark; [rewrite E5; apply (PhaseX_na _ _ Ph) | rewrite (keep_gcs st _ E5); exact K|].
        destruct (MarkX_back o ob v st M Ho Lk) as [M' _]. unfold barrierback in M'. rewrite B, Wv in M'. exact M'.
      * apply PhaseX_swp; [rewrite (keep_gcs st _ E5); exact K|]. apply (Swp_keep st _ S); try assumption.
        intros x b Hb. rewrite Hh in Hb. destruct (Nat.eqb_spec x o) as [->|]; [|right; eauto]. right. exists ob. split; [exact Ho|]. right. rewrite Bk. reflexivity.
  - intros K ob' H'. rewrite Hh, Nat.eqb_refl in H'. inversion H'; subst ob'. cbn. split; [discriminate|].
    intros J. exfalso. destruct (PhaseX_cases _ _ Ph) as [[_ M] | [K' _]]; [|rewrite (keep_gcs st _ E5) in K; congruence].
    apply (black_notin [] st o (c_gl _ _ _ _ (mk_ci _ _ M)) B). apply in_glists.
    assert (Ea : allweak (link_grayagain st o) = allweak st) by (destruct (modify_fields (set_grayagain st (o :: grayagain st)) o (fun ob => with_col ob Gray)) as [_ [_ [_ [_ [Z _]]]]]; exact Z). rewrite Ea in J. auto 6.
  - intros x. unfold alive, isdead. rewrite E4, Hh. change (cw (set_grayagain st (o :: grayagain st))) with (cw st).
    destruct (Nat.eqb_spec x o) as [->|]; [|reflexivity]. rewrite Ho. cbn. rewrite Bk. split; intros [_ _]; (split; [discriminate | reflexivity]).
  - intros x. unfold kind_of. rewrite Hh. destruct (Nat.eqb_spec x o) as [->|]; [|reflexivity]. rewrite Ho. reflexivity.
  - intros x. rewrite Hh. destruct (Nat.eqb_spec x o) as [->|]; [|reflexivity]. rewrite Ho. destruct ob; reflexivity.
Qed.

Lemma back_val_ok : forall st o v P Q k, InvX (Some o) st -> PX st o P -> alive st o -> kind_of st o = Some k -> linkable k ->
  (forall b, P b -> Q b \/ v = VObj b) -> InvX (Some o) (barrierback_val st o v) /\ PX (barrierback_val st o v) o Q.
Proof.
  intros st o v P Q k I X A Kd Lk PQ. destruct v as [|n|x]; cbn [barrierback_val].
  - split; [exact I|]. intros K ob H. destruct (X K ob H) as [X1 X2]. split; [|exact X2]. intros B. destruct (X1 B) as [Y1 [Y2 Y3]].
    split; [exact Y1|]. split; [|exact Y3]. intros b R. destruct (Y2 b R) as [Z | Z]; [|auto]. destruct (PQ b Z) as [Z1 | Z1]; [auto | discriminate].
  - split; [exact I|]. intros K ob H. destruct (X K ob H) as [X1 X2]. split; [|exact X2]. intros B. destruct (X1 B) as [Y1 [Y2 Y3]].
    split; [exact Y1|]. split; [|exact Y3]. intros b R. destruct (Y2 b R) as [Z | Z]; [|auto]. destruct (PQ b Z) as [Z1 | Z1]; [auto | discriminate].
  - destruct (back_ok st o x P Q k I X A Kd Lk) as [R1 [R2 _]]; [|auto]. intros b Pb. destruct (PQ b Pb) as [Z | Z]; [auto | inversion Z; auto].
Qed.

Lemma back_key_ok : forall st o ky P Q k, InvX (Some o) st -> PX st o P -> alive st o -> kind_of st o = Some k -> linkable k ->
  (forall b, P b -> Q b \/ ky = KyObj b) -> InvX (Some o) (barrierback_key st o ky) /\ PX (barrierback_key st o ky) o Q /\
  (forall x, alive (barrierback_key st o ky) x <-> alive st x) /\ (forall x, kind_of (barrierback_key st o ky) x = kind_of st x) /\
  (forall x, option_map (fun b => with_col b Gray) (heap (barrierback_key st o ky) x) = option_map (fun b => with_col b Gray) (heap st x)).
Proof.
  intros st o ky P Q k I X A Kd Lk PQ.
  assert (Same : (forall b, ky <> KyObj b) -> InvX (Some o) st /\ PX st o Q /\ (forall x, alive st x <-> alive st x) /\ (forall x, kind_of st x = kind_of st x) /\
     (forall x, option_map (fun b => with_col b Gray) (heap st x) = option_map (fun b => with_col b Gray) (heap st x))).
  { intros Nk. split; [exact I|]. split; [|split; [reflexivity | split; reflexivity]].
    intros K ob H. destruct (X K ob H) as [X1 X2]. split; [|exact X2]. intros B. destruct (X1 B) as [Y1 [Y2 Y3]].
    split; [exact Y1|]. split; [|exact Y3]. intros b R. destruct (Y2 b R) as [Z | Z]; [|auto]. destruct (PQ b Z) as [Z1 | Z1]; [auto | elim (Nk b Z1)]. }
  destruct ky as [n|x|x]; cbn [barrierback_key]; [apply Same; discriminate | | apply Same; discriminate].
  apply (back_ok st o x P Q k I X A Kd Lk). intros b Pb. destruct (PQ b Pb) as [Z | Z]; [auto | inversion Z; auto].
Qed.

Lemma barrier_val_ok : forall st o v P Q, InvX (Some o) st -> PX st o P -> alive st o -> ~ In o (fixedgc st) ->
  (forall b, P b -> Q b \/ v = VObj b) -> InvX (Some o) (barrier_val st o v) /\ PX (barrier_val st o v) o Q.
Proof.
  intros st o v P Q I X A NF PQ. destruct v as [|n|x]; cbn [barrier_val].
  - split; [exact I|]. intros K ob H. destruct (X K ob H) as [X1 X2]. split; [|exact X2]. intros B. destruct (X1 B) as [Y1 [Y2 Y3]].
    split; [exact Y1|]. split; [|exact Y3]. intros b R. destruct (Y2 b R) as [Z | Z]; [|auto]. destruct (PQ b Z) as [Z1 | Z1]; [auto | discriminate].
  - split; [exact I|]. intros K ob H. destruct (X K ob H) as [X1 X2]. split; [|exact X2]. intros B. destruct (X1 B) as [Y1 [Y2 Y3]].
    split; [exact Y1|]. split; [|exact Y3]. intros b R. destruct (Y2 b R) as [Z | Z]; [|auto]. destruct (PQ b Z) as [Z1 | Z1]; [auto | discriminate].
  - apply (barrier_ok st o x P Q I X A NF). intros b Pb. destruct (PQ b Pb) as [Z | Z]; [auto | inversion Z; auto].
Qed.

(** ** Lists of values *)

Lemma list_set_length : forall (A : Type) (l : list A) i x, length (list_set l i x) = length l.
Proof.
  intros A l i x. unfold list_set. destruct (Nat.ltb_spec i (length l)) as [H|]; [|reflexivity].
  rewrite app_length, firstn_length. cbn [length]. rewrite skipn_length. lia.
Qed.
Lemma list_set_nth : forall (A : Type) (l : list A) i x j y, nth_error (list_set l i x) j = Some y -> nth_error l j = Some y \/ y = x.
Proof.
  intros A l i x j y H. unfold list_set in H. destruct (Nat.ltb_spec i (length l)) as [Hi|]; [|auto].
  destruct (Nat.lt_ge_cases j (length (firstn i l))) as [Lj | Lj].
  - rewrite nth_error_app1 in H by exact Lj. rewrite nth_error_firstn_lt in H; [auto|]. rewrite firstn_length in Lj. lia.
  - rewrite nth_error_app2 in H by exact Lj. destruct (j - length (firstn i l)) as [|k] eqn:Ek; cbn [nth_error] in H; [inversion H; auto|].
    rewrite nth_error_skipn in H. rewrite firstn_length, Nat.min_l in Ek, Lj by lia. left. replace j with (S i + k) by lia. exact H.
Qed.
Lemma list_set_in : forall (A : Type) (l : list A) i x y, In y (list_set l i x) -> In y l \/ y = x.
Proof.
  intros A l i x y H. apply In_nth_error in H. destruct H as [j H]. destruct (list_set_nth _ _ _ _ _ _ H) as [Q | Q]; [left; apply (nth_error_In _ _ Q) | auto].
Qed.

Lemma kwf_vals : forall ob l, kwf ob -> o_kind ob <> KStr ->
  (o_kind ob = KUdata \/ o_kind ob = KArray -> length l <= 1) -> kwf (with_vals ob l).
Proof.
  intros ob l W N H. unfold kwf in *. cbn. destruct (o_kind ob); try congruence; decompose [and] W; auto 10.
Qed.

Lemma okmod_vals : forall st o ob l, kwf (with_vals ob l) ->
  (forall b, In (VObj b) l -> In (VObj b) (o_vals ob) \/ alive st b) ->
  (forall i b, nth_error l i = Some (VObj b) -> nth_error (o_vals ob) i = Some (VObj b) \/ alive st b) ->
  okmod st o ob (with_vals ob l).
Proof.
  intros st o ob l W H1 H2. constructor; cbn [o_kind o_col o_open o_meta o_vals o_upv with_vals]; try reflexivity; auto.
  intros b [R | [R | [[v R] | [[k R] | R]]]]; cbn in R.
  - left. left. exact R.
  - destruct (H1 b R) as [Q | Q]; [left; right; left; exact Q | auto].
  - left. right; right; left. eauto.
  - left. right; right; right; left. eauto.
  - left. right; right; right; right. exact R.
Qed.

Lemma okmod_hash : forall st o ob h, o_kind ob = KTable -> kwf ob ->
  (forall b v, In (KyObj b, v) h -> (exists v', In (KyObj b, v') (o_hash ob)) \/ alive st b) ->
  (forall b k, In (k, VObj b) h -> (exists k', In (k', VObj b) (o_hash ob)) \/ alive st b) ->
  okmod st o ob (with_hash ob h).
Proof.
  intros st o ob h K W H1 H2. constructor; cbn [o_kind o_col o_open o_meta o_vals o_upv with_hash]; try reflexivity; auto.
  - unfold kwf in *. cbn. rewrite K in *. exact W.
  - intros b [R | [R | [[v R] | [[k R] | R]]]]; cbn in R.
    + left. left. exact R.
    + left. right; left. exact R.
    + destruct (H1 b v R) as [Q | Q]; [left; right; right; left; exact Q | auto].
    + destruct (H2 b k R) as [Q | Q]; [left; right; right; right; left; exact Q | auto].
    + left. right; right; right; right. exact R.
Qed.

Lemma val_alive : forall st v, Core st -> reach_val st v -> forall b, v = VObj b -> alive st b.
Proof. intros st v C R b ->. apply (alive_reach st C b R). Qed.

Lemma meta_table : forall st o ob m, Core st -> alive st o -> heap st o = Some ob -> o_meta ob = Some m -> kind_of st m = Some KTable.
Proof. intros. eapply q_meta; eassumption. Qed.

(** A change of one object, before any barrier. *)
Lemma open_mod : forall st o f (Q : id -> Prop), Inv st -> alive st o ->
  (forall ob, heap st o = Some ob -> okmod st o ob (f ob) /\ o_fin (f ob) = o_fin ob) ->
  (forall b, o_col (f b) = o_col b) ->
  (forall ob, heap st o = Some ob ->
     (o_kind ob = KThread /\ o_meta (f ob) = o_meta ob) \/
     ((keepinvariant st = true -> isblack st o = true -> forall b, oref (f ob) b -> oref ob b \/ Q b \/ iswhite st b = false) /\
      (forall u, In u (o_upv (f ob)) -> In u (o_upv ob)) /\
      (keepinvariant st = true -> In o (allweak st) -> forall m, o_meta (f ob) = Some m -> o_meta ob = Some m \/ iswhite st m = false))) ->
  InvX (Some o) (modify st o f) /\ PX (modify st o f) o Q.
Proof.
  intros st o f Q Iv A Hok Hc Hr. pose proof Iv as [C [L Ph]]. split.
  - apply (InvX_modify o f st (InvX_ex o st Iv) Hok Hc). intros ob m Ho Hm. destruct (Hok ob Ho) as [Ok _].
    destruct (m_meta _ _ _ _ Ok m Hm) as [Z | [_ Z]]; [apply (meta_table st o ob m C A Ho Z) | exact Z].
  - destruct (heap st o) as [ob|] eqn:Ho; [|intros K ob' H'; rewrite heap_modify, Nat.eqb_refl, Ho in H'; discriminate].
    destruct (Hr ob eq_refl) as [[T1 T2] | [R1 [R2 R3]]].
    + apply (PX_thread st o f nobody Q (Inv_PX o st Iv) Hc). intros b Hb. rewrite Ho in Hb. inversion Hb; subst b. auto.
    + apply (PX_modify st o f nobody Q (Inv_PX o st Iv) Hc); [|intros b []]. intros b Hb. rewrite Ho in Hb. inversion Hb; subst b.
      split; [apply (m_kind _ _ _ _ (proj1 (Hok ob eq_refl)))|]. auto.
Qed.

Lemma Inv_mod : forall st o f, Inv st -> alive st o ->
  (forall ob, heap st o = Some ob -> okmod st o ob (f ob) /\ o_fin (f ob) = o_fin ob) ->
  (forall b, o_col (f b) = o_col b) ->
  (forall ob, heap st o = Some ob ->
     (o_kind ob = KThread /\ o_meta (f ob) = o_meta ob) \/
     ((keepinvariant st = true -> isblack st o = true -> forall b, oref (f ob) b -> oref ob b \/ iswhite st b = false) /\
      (forall u, In u (o_upv (f ob)) -> In u (o_upv ob)) /\
      (keepinvariant st = true -> In o (allweak st) -> forall m, o_meta (f ob) = Some m -> o_meta ob = Some m \/ iswhite st m = false))) ->
  Inv (modify st o f).
Proof.
  intros st o f Iv A Hok Hc Hr. destruct (open_mod st o f nobody Iv A Hok Hc) as [X1 X2]; [|apply (InvX_undo o _ X1 X2)].
  intros ob Ho. destruct (Hr ob Ho) as [Z | [Z1 [Z2 Z3]]]; [left; exact Z|]. right. split; [|auto]. intros K B b R. destruct (Z1 K B b R); auto.
Qed.

(** Changing a thread's stack, also when the thread itself is not reachable. *)
Lemma Inv_stack : forall st o f, Inv st ->
  (forall ob, heap st o = Some ob -> okmod st o ob (f ob) /\ o_fin (f ob) = o_fin ob /\ o_kind ob = KThread) ->
  (forall b, o_col (f b) = o_col b) -> Inv (modify st o f).
Proof.
  intros st o f Iv Hok Hc. pose proof Iv as [C [L Ph]].
  assert (Mt : forall ob, heap st o = Some ob -> o_meta ob = None /\ o_meta (f ob) = None).
  { intros ob Ho. destruct (Hok ob Ho) as [Ok [_ K]]. pose proof (q_kwf _ C o ob Ho) as W1. pose proof (m_kwf _ _ _ _ Ok) as W2.
    unfold kwf in *. rewrite (m_kind _ _ _ _ Ok), K in W2. rewrite K in W1. split; [apply W1 | apply W2]. }
  apply (InvX_undo o).
  - apply (InvX_modify o f st (InvX_ex o st Iv)); [intros ob Ho; destruct (Hok ob Ho) as [Z1 [Z2 _]]; auto | exact Hc|].
    intros ob m Ho Hm. destruct (Mt ob Ho) as [_ Z]. congruence.
  - apply (PX_thread st o f nobody nobody (Inv_PX o st Iv) Hc). intros ob Ho. destruct (Mt ob Ho) as [Z1 Z2]. destruct (Hok ob Ho) as [_ [_ K]]. split; congruence.
Qed.

Lemma has_kind_heap : forall st o l, has_kind st o l -> exists ob, heap st o = Some ob /\ In (o_kind ob) l.
Proof. intros st o l [k [K I]]. destruct (alive_kind st o k K) as [ob [Ho <-]]. eauto. Qed.

(** ** Stacks *)

Lemma list_set_okmod : forall st o ob i v, Core st -> heap st o = Some ob -> o_kind ob <> KStr -> (forall b, v = VObj b -> alive st b) ->
  okmod st o ob (with_vals ob (list_set (o_vals ob) i v)).
Proof.
  intros st o ob i v C Ho N Av. pose proof (q_kwf _ C o ob Ho) as W. apply okmod_vals.
  - apply (kwf_vals ob _ W N). rewrite list_set_length. intros K. unfold kwf in W. destruct K as [K | K]; rewrite K in W; apply W.
  - intros b I. apply list_set_in in I. destruct I as [I | I]; [auto | right; apply Av; auto].
  - intros j b I. apply list_set_nth in I. destruct I as [I | I]; [auto | right; apply Av; auto].
Qed.

Lemma nils_in : forall n b, ~ In (VObj b) (nils n).
Proof. intros n b I. apply in_nils in I. discriminate. Qed.
Lemma app_nth : forall (A : Type) (l l' : list A) i x, nth_error (l ++ l') i = Some x -> nth_error l i = Some x \/ In x l'.
Proof.
  intros A l l' i x H. destruct (Nat.lt_ge_cases i (length l)) as [Li | Li]; [rewrite nth_error_app1 in H by exact Li; auto|].
  rewrite nth_error_app2 in H by exact Li. right. apply (nth_error_In _ _ H).
Qed.

Lemma slot_inv : forall st th i v, Inv st -> legal st (MSlot th i v) -> Inv (step st (MSlot th i v)).
Proof.
  intros st th i v Iv [R [K Rv]]. pose proof Iv as [C _]. cbn [step]. destruct (has_kind_heap _ _ _ K) as [ob [Ho [Kt | []]]].
  apply (Inv_stack st th _ Iv); [|reflexivity]. intros b Hb. rewrite Ho in Hb. inversion Hb; subst b. split; [|auto].
  apply (list_set_okmod st th ob i v C Ho); [congruence | apply (val_alive st v C Rv)].
Qed.

Lemma top_inv : forall st th n, Inv st -> legal st (MTop th n) -> Inv (step st (MTop th n)).
Proof.
  intros st th n Iv [R [K _]]. pose proof Iv as [C _]. cbn [step]. destruct (has_kind_heap _ _ _ K) as [ob [Ho [Kt | []]]].
  apply (Inv_stack st th _ Iv); [|reflexivity]. intros b Hb. rewrite Ho in Hb. inversion Hb; subst b. split; [|auto].
  constructor; cbn; auto. pose proof (q_kwf _ C th ob Ho) as W. unfold kwf in *. cbn. exact W.
Qed.

Lemma grow_inv : forall st o n, Inv st -> legal st (MGrow o n) -> Inv (step st (MGrow o n)).
Proof.
  intros st o n Iv [R K]. pose proof Iv as [C _]. cbn [step]. destruct (has_kind_heap _ _ _ K) as [ob [Ho Kt]].
  assert (Ns : o_kind ob <> KStr /\ o_kind ob <> KUdata /\ o_kind ob <> KArray) by (cbn in Kt; intuition congruence).
  assert (Iw : forall b, In (VObj b) (o_vals ob ++ nils n) -> In (VObj b) (o_vals ob)).
  { intros b J. apply in_app_or in J. destruct J as [J | J]; [exact J | elim (nils_in _ _ J)]. }
  apply (Inv_mod st o _ Iv (alive_reach st C o R)); [|reflexivity|].
  - intros b Hb. rewrite Ho in Hb. inversion Hb; subst b. split; [|reflexivity]. apply okmod_vals.
    + apply kwf_vals; [apply (q_kwf _ C o ob Ho) | tauto | tauto].
    + intros b J. left. apply Iw, J.
    + intros i b J. apply app_nth in J. destruct J as [J | J]; [auto | elim (nils_in _ _ J)].
  - intros b Hb. rewrite Ho in Hb. inversion Hb; subst b. right. split; [|split; [auto | cbn; auto]].
    intros _ _ b J. left. destruct J as [J | [J | J]]; cbn in J; [left; exact J | right; left; apply Iw, J | right; right; exact J].
Qed.

(** ** Tables, userdata, closures, prototypes *)

Lemma modify_none : forall st o f, heap st o = None -> modify st o f = st.
Proof. intros st o f H. unfold modify. rewrite H. reflexivity. Qed.

Lemma val_inv : forall st o i v, Inv st -> legal st (MVal o i v) -> Inv (step st (MVal o i v)).
Proof.
  intros st o i v Iv [R Rv]. pose proof Iv as [C _]. cbn [step]. unfold store_val. pose proof (alive_reach st C o R) as A.
  destruct (kind_of st o) as [k|] eqn:Kd; [|exact Iv]. destruct (alive_kind st o k Kd) as [ob [Ho Ko]].
  set (f := fun b => with_vals b (list_set (o_vals b) i v)).
  assert (Go : o_kind ob <> KStr -> InvX (Some o) (modify st o f) /\ PX (modify st o f) o (fun b => v = VObj b)).
  { intros Ns. apply (open_mod st o f _ Iv A); [| reflexivity |].
    - intros b Hb. rewrite Ho in Hb. inversion Hb; subst b. split; [|reflexivity]. apply (list_set_okmod st o ob i v C Ho Ns (val_alive st v C Rv)).
    - intros b Hb. rewrite Ho in Hb. inversion Hb; subst b. right. split; [|split; [auto | cbn; auto]].
      intros _ _ b J. destruct J as [J | [J | J]]; cbn in J; [left; left; exact J | | left; right; right; exact J].
      apply list_set_in in J. destruct J as [J | J]; [left; right; left; exact J | auto]. }
  assert (A' : alive (modify st o f) o) by (apply alive_modify_col; [reflexivity | exact A]).
  assert (K' : kind_of (modify st o f) o = Some k) by (rewrite modify_kind; [exact Kd | reflexivity]).
  assert (NF : k <> KStr -> ~ In o (fixedgc (modify st o f))).
  { intros Ns. replace (fixedgc (modify st o f)) with (fixedgc st) by (symmetry; apply modify_all). apply (nonstr_notfixed st o k C Kd Ns). }
  destruct k; try exact Iv.
  - destruct Go as [X1 X2]; [congruence|]. destruct (barrier_val_ok _ o v _ nobody X1 X2 A' (NF ltac:(discriminate))) as [Y1 Y2]; [auto|]. apply (InvX_undo o _ Y1 Y2).
  - destruct Go as [X1 X2]; [congruence|]. destruct (back_val_ok _ o v _ nobody KTable X1 X2 A' K' Logic.I) as [Y1 Y2]; [auto|]. apply (InvX_undo o _ Y1 Y2).
  - destruct Go as [X1 X2]; [congruence|]. destruct (barrier_val_ok _ o v _ nobody X1 X2 A' (NF ltac:(discriminate))) as [Y1 Y2]; [auto|]. apply (InvX_undo o _ Y1 Y2).
  - destruct Go as [X1 X2]; [congruence|]. destruct (barrier_val_ok _ o v _ nobody X1 X2 A' (NF ltac:(discriminate))) as [Y1 Y2]; [auto|]. apply (InvX_undo o _ Y1 Y2).
Qed.

Lemma hash_set_key : forall h k v b w, In (KyObj b, w) (hash_set h k v) -> exists w', In (KyObj b, w') h.
Proof.
  induction h as [|[k' v'] h IH]; cbn; intros k v b w I; [destruct I|]. destruct (key_eqb k k'); destruct I as [I | I].
  - inversion I; subst. eauto.
  - eauto.
  - inversion I; subst. eauto.
  - destruct (IH _ _ _ _ I) as [w' J]. eauto.
Qed.
Lemma hash_set_val : forall h k v b k0, In (k0, VObj b) (hash_set h k v) -> (exists k1, In (k1, VObj b) h) \/ v = VObj b.
Proof.
  induction h as [|[k' v'] h IH]; cbn; intros k v b k0 I; [destruct I|]. destruct (key_eqb k k'); destruct I as [I | I].
  - inversion I; subst. auto.
  - eauto.
  - inversion I; subst. eauto.
  - destruct (IH _ _ _ _ I) as [[w' J] | J]; eauto.
Qed.

Lemma key_alive : forall st k, Core st -> reach_key st k -> forall b, k = KyObj b -> alive st b.
Proof. intros st k C R b ->. apply (alive_reach st C b R). Qed.

Lemma hash_inv : forall st t k v, Inv st -> legal st (MHash t k v) -> Inv (step st (MHash t k v)).
Proof.
  intros st t k v Iv [R [Kt [Rk Rv]]]. pose proof Iv as [C _]. cbn [step]. unfold store_hash. pose proof (alive_reach st C t R) as A.
  destruct (has_kind_heap _ _ _ Kt) as [ob [Ho [Ko | []]]]. symmetry in Ko. rewrite Ho.
  assert (Kd : kind_of st t = Some KTable) by (unfold kind_of; rewrite Ho, Ko; reflexivity).
  pose proof (q_kwf _ C t ob Ho) as W.
  destruct (existsb (fun e => key_eqb k (fst e)) (o_hash ob)) eqn:Ex.
  - unfold sethash. set (f := fun b => with_hash b (hash_set (o_hash ob) k v)).
    destruct (open_mod st t f (fun b => v = VObj b) Iv A) as [X1 X2].
    + intros b Hb. rewrite Ho in Hb. inversion Hb; subst b. split; [|reflexivity]. apply (okmod_hash st t ob _ Ko W).
      * intros b w J. left. apply (hash_set_key _ _ _ _ _ J).
      * intros b k0 J. apply hash_set_val in J. destruct J as [J | J]; [auto | right; apply (val_alive st v C Rv b J)].
    + reflexivity.
    + intros b Hb. rewrite Ho in Hb. inversion Hb; subst b. right. split; [|split; [auto | cbn; auto]].
      intros _ _ b [J | [J | [[w J] | [[k0 J] | J]]]]; cbn in J.
      * left; left; exact J.
      * left; right; left; exact J.
      * left; right; right; left. apply (hash_set_key _ _ _ _ _ J).
      * apply hash_set_val in J. destruct J as [J | J]; [left; right; right; right; left; exact J | auto].
      * left; right; right; right; right; exact J.
    + destruct (back_val_ok (modify st t f) t v _ nobody KTable X1 X2) as [Y1 Y2]; [apply alive_modify_col; [reflexivity | exact A] | rewrite modify_kind; [exact Kd | reflexivity] | exact Logic.I | auto|].
      apply (InvX_undo t _ Y1 Y2).
  - unfold sethash. set (f1 := fun b => with_hash b ((k, VNil) :: o_hash ob)). set (f2 := fun b => with_hash b ((k, v) :: o_hash ob)).
    destruct (open_mod st t f1 (fun b => k = KyObj b) Iv A) as [X1 X2].
    + intros b Hb. rewrite Ho in Hb. inversion Hb; subst b. split; [|reflexivity]. apply (okmod_hash st t ob _ Ko W).
      * intros b w [J | J]; [inversion J; right; apply (key_alive st k C Rk b); auto | eauto].
      * intros b k0 [J | J]; [inversion J | eauto].
    + reflexivity.
    + intros b Hb. rewrite Ho in Hb. inversion Hb; subst b. right. split; [|split; [auto | cbn; auto]].
      intros _ _ b [J | [J | [[w J] | [[k0 J] | J]]]]; cbn in J.
      * left; left; exact J.
      * left; right; left; exact J.
      * destruct J as [J | J]; [inversion J; auto | left; right; right; left; eauto].
      * destruct J as [J | J]; [inversion J | left; right; right; right; left; eauto].
      * left; right; right; right; right; exact J.
    + set (s1 := modify st t f1) in *.
      destruct (back_key_ok s1 t k _ nobody KTable X1 X2) as [Y1 [Y2 [Y3 [Y4 Y5]]]]; [apply alive_modify_col; [reflexivity | exact A] | unfold s1; rewrite modify_kind; [exact Kd | reflexivity] | exact Logic.I | auto|].
      set (s2 := barrierback_key s1 t k) in *.
      assert (As : forall x, alive s2 x <-> alive st x) by (intros x; rewrite Y3; apply alive_modify_col; reflexivity).
      assert (H2 : exists b2, heap s2 t = Some b2 /\ o_hash b2 = (k, VNil) :: o_hash ob /\ o_kind b2 = KTable /\ kwf b2 /\ o_meta b2 = o_meta ob).
      { specialize (Y5 t). unfold s1 in Y5. rewrite (heap_modify_eq st t f1 ob Ho) in Y5. cbn [option_map] in Y5. destruct (heap s2 t) as [b2|] eqn:E2; [|discriminate].
        exists b2. cbn [option_map] in Y5. assert (Y6 : with_col b2 Gray = with_col (f1 ob) Gray) by congruence.
        split; [reflexivity|]. split; [apply (f_equal o_hash Y6)|]. split; [rewrite <- Ko; apply (f_equal o_kind Y6)|]. split; [|apply (f_equal o_meta Y6)].
        destruct Y1 as [C2 _]. apply (q_kwf _ C2 t b2 E2). }
      destruct H2 as [b2 [E2 [Hh [K2 [W2 M2]]]]]. pose proof Y1 as [C2 _].
      assert (X3 : InvX (Some t) (modify s2 t f2)).
      { apply (InvX_modify t f2 s2 Y1); [|reflexivity|].
        - intros b Hb. rewrite E2 in Hb. inversion Hb; subst b. split; [|reflexivity]. apply (okmod_hash s2 t b2 _ K2 W2); rewrite Hh.
          + intros b w [J | J]; [inversion J; left; exists VNil; left; congruence | left; exists w; right; exact J].
          + intros b k0 [J | J]; [inversion J; right; apply As, (val_alive st v C Rv b); auto | left; exists k0; right; exact J].
        - intros b m Hb Hm. rewrite E2 in Hb. inversion Hb; subst b. cbn in Hm. apply (q_meta _ C2 t b2 m); [apply As, A | exact E2 | exact Hm]. }
      assert (X4 : PX (modify s2 t f2) t (fun b => v = VObj b)).
      { apply (PX_modify s2 t f2 nobody _ Y2); [reflexivity| |intros b []]. intros b Hb. rewrite E2 in Hb. inversion Hb; subst b.
        split; [reflexivity|]. split; [|split; [auto | cbn; auto]].
        intros _ _ b [J | [J | [[w J] | [[k0 J] | J]]]]; cbn in J.
        - left; left; exact J.
        - left; right; left; exact J.
        - left; right; right; left. rewrite Hh. destruct J as [J | J]; [inversion J; exists VNil; left; congruence | exists w; right; exact J].
        - destruct J as [J | J]; [inversion J; auto | left; right; right; right; left]. rewrite Hh. exists k0. right. exact J.
        - left; right; right; right; right; exact J. }
      destruct (back_val_ok (modify s2 t f2) t v _ nobody KTable X3 X4) as [Z1 Z2].
      * apply alive_modify_col; [reflexivity | apply As, A].
      * rewrite modify_kind by reflexivity. unfold kind_of. rewrite E2, K2. reflexivity.
      * exact Logic.I.
      * auto.
      * apply (InvX_undo t _ Z1 Z2).
Qed.

Lemma rebuild_inv : forall st t vs h, Inv st -> legal st (MRebuild t vs h) -> Inv (step st (MRebuild t vs h)).
Proof.
  intros st t vs h Iv [R [Kt Hs]]. pose proof Iv as [C _]. cbn [step]. unfold rebuild. pose proof (alive_reach st C t R) as A.
  destruct (has_kind_heap _ _ _ Kt) as [ob [Ho [Ko | []]]]. symmetry in Ko. destruct (Hs ob Ho) as [H1 H2].
  assert (Kd : kind_of st t = Some KTable) by (unfold kind_of; rewrite Ho, Ko; reflexivity).
  set (f := fun b => with_hash (with_vals b vs) h).
  assert (Al : forall b, oref ob b -> alive st b) by (intros b Rf; apply (q_edge _ C t b A), (edge_oref st t b ob Ho Rf)).
  assert (Sub : forall b, oref (f ob) b -> oref ob b).
  { intros b [J | [J | [[w J] | [[k0 J] | J]]]]; cbn in J.
    - left; exact J.
    - destruct (H1 b (or_introl J)) as [Q | Q]; [right; left; exact Q | right; right; right; left; exact Q].
    - right; right; left. apply (H2 b w J).
    - destruct (H1 b (or_intror (ex_intro _ k0 J))) as [Q | Q]; [right; left; exact Q | right; right; right; left; exact Q].
    - right; right; right; right; exact J. }
  destruct (open_mod st t f nobody Iv A) as [X1 X2].
  - intros b Hb. rewrite Ho in Hb. inversion Hb; subst b. split; [|reflexivity]. constructor; cbn; auto.
    + pose proof (q_kwf _ C t ob Ho) as W. unfold kwf in *. cbn. rewrite Ko in *. exact W.
    + intros i b J. right. apply Al, Sub. right; left. apply (nth_error_In _ _ J).
  - reflexivity.
  - intros b Hb. rewrite Ho in Hb. inversion Hb; subst b. right. split; [|split; [auto | cbn; auto]]. intros _ _ b J. left. apply Sub, J.
  - assert (A1 : alive (modify st t f) t) by (apply alive_modify_col; [reflexivity | exact A]).
    assert (K1 : kind_of (modify st t f) t = Some KTable) by (rewrite modify_kind; [exact Kd | reflexivity]).
    generalize (modify st t f) X1 X2 A1 K1. clear. induction h as [|[k v] h IH]; cbn [fold_left]; intros s X1 X2 A1 K1; [apply (InvX_undo t _ X1 X2)|].
    destruct (back_key_ok s t k nobody nobody KTable X1 X2 A1 K1 Logic.I) as [Y1 [Y2 [Y3 [Y4 _]]]]; [intros b []|].
    apply IH; [exact Y1 | exact Y2 | apply Y3, A1 | cbn [fst]; rewrite Y4; exact K1].
Qed.

Lemma mode_inv : forall st mt md g, Inv st -> legal st (MMode mt md g) -> Inv (step st (MMode mt md g)).
Proof.
  intros st mt md g Iv [R K]. pose proof Iv as [C _]. cbn [step]. destruct (has_kind_heap _ _ _ K) as [ob [Ho [Kt | []]]].
  apply (Inv_mod st mt _ Iv (alive_reach st C mt R)); [|reflexivity|].
  - intros b Hb. rewrite Ho in Hb. inversion Hb; subst b. split; [|reflexivity]. constructor; cbn; auto. apply (q_kwf _ C mt ob Ho).
  - intros b Hb. right. split; [|split; cbn; auto]. intros _ _ x J. left. exact J.
Qed.

Lemma cache_inv : forall st p cl, Inv st -> legal st (MCache p cl) -> Inv (step st (MCache p cl)).
Proof.
  intros st p cl Iv [R [K [Rc Kc]]]. pose proof Iv as [C _]. cbn [step]. destruct (isblack st p) eqn:B; [exact Iv|].
  destruct (has_kind_heap _ _ _ K) as [ob [Ho [Kt | []]]].
  apply (Inv_mod st p _ Iv (alive_reach st C p R)); [|reflexivity|].
  - intros b Hb. rewrite Ho in Hb. inversion Hb; subst b. split; [|reflexivity]. constructor; cbn; auto.
    + pose proof (q_kwf _ C p ob Ho) as W. unfold kwf in *. cbn. rewrite <- Kt in *. exact W.
    + intros b [J | [J | [J | [J | J]]]]; cbn in J; [left; left; exact J | left; right; left; exact J | left; right; right; left; exact J | left; right; right; right; left; exact J|].
      inversion J; subst. right. apply (alive_reach st C b Rc).
  - intros b Hb. right. split; [|split; cbn; auto]. intros _ Bk. congruence.
Qed.

Lemma undump_inv : forall st p v, Inv st -> legal st (MUndump p v) -> covered st (MUndump p v) -> Inv (step st (MUndump p v)).
Proof.
  intros st p v Iv [R [K Rv]] Cv. pose proof Iv as [C _]. cbn [step]. destruct (has_kind_heap _ _ _ K) as [ob [Ho [Kt | []]]].
  apply (Inv_mod st p _ Iv (alive_reach st C p R)); [|reflexivity|].
  - intros b Hb. rewrite Ho in Hb. inversion Hb; subst b. split; [|reflexivity]. apply okmod_vals.
    + apply kwf_vals; [apply (q_kwf _ C p ob Ho) | congruence | intros [Q | Q]; congruence].
    + intros b J. apply in_app_or in J. destruct J as [J | [J | []]]; [auto | right; apply (val_alive st v C Rv b J)].
    + intros i b J. apply app_nth in J. destruct J as [J | [J | []]]; [auto | right; apply (val_alive st v C Rv b J)].
  - intros b Hb. right. split; [|split; cbn; auto]. intros Kp B x [J | [J | J]]; cbn in J; [left; left; exact J | | left; right; right; exact J].
    apply in_app_or in J. destruct J as [J | [J | []]]; [left; right; left; exact J|]. right. subst v. apply (Cv Kp B).
Qed.

(** ** Roots *)

Lemma roots_inv : forall st c r m s, Inv st -> kind_of st c = Some KThread -> alive st c -> (forall o, r = VObj o -> alive st o) ->
  (forall o, In (Some o) m -> alive st o) -> (forall o, In o s -> alive st o) -> Inv (set_roots st c r m s).
Proof.
  intros st c r m s [C [L P]] K Ac Ar Am As. split; [|split].
  - apply (Core_same st _ C); try reflexivity; [exact K|]. intros o R.
    destruct R as [R | R | R | R | R | R | R | R]; cbn in R; try (subst o; exact Ac); auto; apply (q_root _ C).
    + apply r_main, R.
    + apply r_fin, R.
    + apply r_fixed, R.
    + apply r_memerr, R.
  - apply (Lists_shape st _ L), shape_same; reflexivity.
  - unfold Phase in *. cbn [gcs set_roots]. destruct (gcs st) eqn:G; try (apply (Swp_keep st _ P); try reflexivity; cbn; intros o b Hb; eauto 6); [| |destruct P].
    + apply (MarkX_uvs None st _ P); try reflexivity; auto using incl_refl.
    + apply (MarkX_uvs None st _ P); try reflexivity; auto using incl_refl.
Qed.

Lemma cur_alive : forall st, Core st -> alive st (curth st).
Proof. intros st C. apply (q_root _ C), r_cur. reflexivity. Qed.
Lemma old_reg : forall st, Core st -> forall o, registry st = VObj o -> alive st o.
Proof. intros st C o E. apply (q_root _ C), r_reg, E. Qed.
Lemma old_mts : forall st, Core st -> forall o, In (Some o) (mts st) -> alive st o.
Proof. intros st C o E. apply (q_root _ C), r_mt, E. Qed.
Lemma old_cache : forall st, Core st -> forall o, In o (strcache st) -> alive st o.
Proof. intros st C o E. apply (q_root _ C), r_cache, E. Qed.

Lemma cur_inv : forall st th, Inv st -> legal st (MCur th) -> Inv (step st (MCur th)).
Proof.
  intros st th Iv [R [k [K [<- | []]]]]. pose proof Iv as [C _]. cbn [step].
  apply roots_inv; auto using alive_reach, old_reg, old_mts, old_cache.
Qed.
Lemma reg_inv : forall st v, Inv st -> legal st (MReg v) -> Inv (step st (MReg v)).
Proof.
  intros st v Iv R. pose proof Iv as [C _]. cbn [step].
  apply roots_inv; auto using cur_alive, old_mts, old_cache, q_cur. apply (val_alive st v C R).
Qed.
Lemma mt_inv : forall st i m, Inv st -> legal st (MMt i m) -> Inv (step st (MMt i m)).
Proof.
  intros st i m Iv R. pose proof Iv as [C _]. cbn [step].
  apply roots_inv; auto using cur_alive, old_reg, old_cache, q_cur. intros o J. apply list_set_in in J.
  destruct J as [J | J]; [apply (old_mts st C o J)|]. subst m. destruct R as [R _]. apply (alive_reach st C o R).
Qed.
Lemma strcache_inv : forall st i s, Inv st -> legal st (MStrCache i s) -> Inv (step st (MStrCache i s)).
Proof.
  intros st i s Iv [R _]. pose proof Iv as [C _]. cbn [step].
  apply roots_inv; auto using cur_alive, old_reg, old_mts, q_cur. intros o J. apply list_set_in in J.
  destruct J as [J | J]; [apply (old_cache st C o J)|]. subst s. apply (alive_reach st C o R).
Qed.

(** ** Strings found again *)

Lemma push_inv : forall st v, Inv st -> (forall o, v = VObj o -> alive st o) -> Inv (push st v).
Proof.
  intros st v Iv Av. pose proof Iv as [C _]. unfold push. apply (Inv_stack st _ _ Iv); [|reflexivity].
  intros b Hb. split; [apply (push_okmod st v C Av b Hb)|]. split; [reflexivity|].
  pose proof (q_cur _ C) as K. unfold kind_of in K. rewrite Hb in K. inversion K. reflexivity.
Qed.

Lemma intern_inv : forall st s, Inv st -> legal st (MIntern s) -> Inv (step st (MIntern s)).
Proof.
  intros st s Iv K. pose proof Iv as [C [L P]]. cbn [step legal] in *. unfold intern. destruct (alive_kind st s KStr K) as [ob [Ho Ko]].
  destruct (isdead st s) eqn:D; [|apply (push_inv st _ Iv); intros o E; inversion E; subst; split; congruence].
  assert (Nf : ~ In s (fixedgc st)).
  { intros J. destruct (q_fix _ C s J) as [_ W]. unfold isdead in D. unfold iswhite in W. rewrite Ho in *. destruct (o_col ob); discriminate. }
  destruct (setcol_fields st s (White (cw st))) as [E1 [E2 [E3 [E4 [E5 [E6 [E7 [E8 [E9 [E10 _]]]]]]]]]]. fold (makewhite st s) in *.
  assert (Iw : Inv (makewhite st s)).
  { split; [apply Core_makewhite; auto|]. split; [apply (Lists_shape st _ L), shape_setcol|].
    assert (Sw : keepinvariant st = true -> False).
    { intros Kp. assert (M : MarkX None st) by (unfold Phase in P; unfold keepinvariant in Kp; destruct (gcs st); try discriminate; auto; destruct P).
      rewrite (allcw_dead st s (mk_cw _ _ M)) in D. discriminate. }
    assert (S : Swp st) by (unfold Phase in P; unfold keepinvariant in Sw; destruct (gcs st); auto; exfalso; auto).
    assert (S' : Swp (makewhite st s)).
    { apply (Swp_keep st _ S); try assumption. intros x b Hb. unfold makewhite in Hb. rewrite heap_setcol in Hb.
      destruct (Nat.eqb_spec x s) as [->|]; [|right; eauto]. rewrite Ho in Hb. cbn in Hb. inversion Hb. left. reflexivity. }
    unfold Phase. rewrite E5. unfold keepinvariant in Sw. destruct (gcs st); auto; exfalso; auto. }
  apply (push_inv _ _ Iw). intros o E. inversion E; subst o. unfold alive, isdead. rewrite E4. unfold makewhite. rewrite heap_setcol, Nat.eqb_refl, Ho. cbn.
  split; [discriminate|]. destruct (cw st); reflexivity.
Qed.
