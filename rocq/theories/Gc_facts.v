(** Basic facts about the collector model: updates, colours, and what marking does. *)
From Coq Require Import ZArith List Bool Arith Lia.
From Verif Require Import Base Gc_model Gc_spec.
Import ListNotations.
Local Open Scope nat_scope.

Lemma NoDup_app : forall (A : Type) (l1 l2 : list A), NoDup l1 -> NoDup l2 ->
  (forall x, In x l1 -> In x l2 -> False) -> NoDup (l1 ++ l2).
Proof.
  induction l1 as [|a l1 IH]; intros l2 N1 N2 D; [exact N2|].
  inversion N1; subst. cbn [app]. constructor.
  - intros I. apply in_app_or in I. destruct I as [I | I]; [contradiction | apply (D a); [left; reflexivity | exact I]].
  - apply IH; [assumption | assumption |]. intros x I1 I2. apply (D x); [right; exact I1 | exact I2].
Qed.

(** ** Updates *)

Lemma gst_eta : forall st, set_heap (set_gray st (gray st)) (heap st) = st.
Proof. intros []; reflexivity. Qed.

Lemma heap_modify : forall st o f x,
  heap (modify st o f) x = if Nat.eqb x o then option_map f (heap st o) else heap st x.
Proof.
  intros. unfold modify. destruct (heap st o) eqn:E.
  - reflexivity.
  - destruct (Nat.eqb_spec x o); subst; [exact E | reflexivity].
Qed.

Lemma heap_modify_eq : forall st o f ob, heap st o = Some ob -> heap (modify st o f) o = Some (f ob).
Proof. intros. rewrite heap_modify, Nat.eqb_refl, H. reflexivity. Qed.

Lemma heap_modify_neq : forall st o f x, x <> o -> heap (modify st o f) x = heap st x.
Proof. intros. rewrite heap_modify. apply Nat.eqb_neq in H. rewrite H. reflexivity. Qed.

Lemma modify_rest : forall st o f, modify st o f = set_heap st (heap (modify st o f)).
Proof. intros. unfold modify. destruct (heap st o); [reflexivity | destruct st; reflexivity]. Qed.

Lemma heap_setcol : forall st o c x,
  heap (setcol st o c) x = if Nat.eqb x o then option_map (fun b => with_col b c) (heap st o) else heap st x.
Proof. intros. apply heap_modify. Qed.

Lemma with_col_same : forall b, with_col b (o_col b) = b.
Proof. intros []; reflexivity. Qed.
Lemma with_col2 : forall b c d, with_col (with_col b c) d = with_col b d.
Proof. intros []; reflexivity. Qed.

Definition linkable (k : kind) : Prop := match k with KStr | KUdata | KArray => False | _ => True end.

(** The fields a kind leaves unused. *)
Definition kwf (ob : obj) : Prop :=
  match o_kind ob with
  | KStr => o_meta ob = None /\ o_vals ob = [] /\ o_hash ob = [] /\ o_upv ob = [] /\ o_cache ob = None /\ o_open ob = []
  | KUdata | KArray => length (o_vals ob) <= 1 /\ o_hash ob = [] /\ o_upv ob = [] /\ o_cache ob = None /\ o_open ob = []
  | KTable => o_upv ob = [] /\ o_cache ob = None /\ o_open ob = []
  | KLcl => o_meta ob = None /\ o_hash ob = [] /\ o_cache ob = None /\ o_open ob = []
  | KCcl => o_meta ob = None /\ o_hash ob = [] /\ o_upv ob = [] /\ o_cache ob = None /\ o_open ob = []
  | KProto => o_meta ob = None /\ o_hash ob = [] /\ o_upv ob = [] /\ o_open ob = []
  | KThread => o_meta ob = None /\ o_hash ob = [] /\ o_upv ob = [] /\ o_cache ob = None
  end.

(** References an object holds itself (not through upvalues). *)
Definition oref (ob : obj) (b : id) : Prop :=
  o_meta ob = Some b \/ In (VObj b) (o_vals ob) \/ (exists v, In (KyObj b, v) (o_hash ob)) \/
  (exists k, In (k, VObj b) (o_hash ob)) \/ o_cache ob = Some b.

Lemma oref_with_col : forall ob c b, oref (with_col ob c) b <-> oref ob b.
Proof. intros [] c b. reflexivity. Qed.
Lemma kwf_with_col : forall ob c, kwf (with_col ob c) <-> kwf ob.
Proof. intros [] c. reflexivity. Qed.

Record typ (st : gst) : Prop := {
  t_kwf : forall o ob, heap st o = Some ob -> kwf ob;
  t_meta : forall o ob m, heap st o = Some ob -> o_meta ob = Some m -> kind_of st m = Some KTable;
  t_fresh : forall o ob, heap st o = Some ob -> o < nextid st
}.

Lemma iswhite_some : forall st o, iswhite st o = true ->
  exists ob w, heap st o = Some ob /\ o_col ob = White w.
Proof.
  intros st o H. unfold iswhite in H. destruct (heap st o) as [ob|] eqn:E; [|discriminate].
  destruct (o_col ob) as [w| |] eqn:Ec; try discriminate. exists ob, w. split; [reflexivity | exact Ec].
Qed.

(** ** Counting white objects *)

Definition cwhite (st : gst) : nat := length (filter (iswhite st) (seq 0 (nextid st))).

Lemma filter_le : forall (A : Type) (p q : A -> bool) l, (forall x, In x l -> p x = true -> q x = true) ->
  length (filter p l) <= length (filter q l).
Proof.
  induction l as [|a l IH]; intros H; [apply le_n|].
  specialize (IH (fun x h => H x (or_intror h))). cbn [filter].
  destruct (p a) eqn:P.
  - rewrite (H a (or_introl eq_refl) P). cbn [length]. lia.
  - destruct (q a); cbn [length]; lia.
Qed.

Lemma filter_lt : forall (A : Type) (p q : A -> bool) l a, (forall x, In x l -> p x = true -> q x = true) ->
  In a l -> q a = true -> p a = false -> length (filter p l) < length (filter q l).
Proof.
  induction l as [|b l IH]; intros a H I Q P; [destruct I|].
  cbn [filter]. destruct I as [-> | I].
  - rewrite Q, P. cbn [length].
    pose proof (filter_le A p q l (fun x h => H x (or_intror h))). lia.
  - pose proof (IH a (fun x h => H x (or_intror h)) I Q P).
    destruct (p b) eqn:Pb.
    + rewrite (H b (or_introl eq_refl) Pb). cbn [length]. lia.
    + destruct (q b); cbn [length]; lia.
Qed.

Lemma cwhite_le_next : forall st, cwhite st <= nextid st.
Proof.
  intros. unfold cwhite. rewrite <- (seq_length (nextid st) 0) at 2.
  generalize (seq 0 (nextid st)) as l. induction l as [|a l IH]; [apply le_n|].
  cbn [filter]. destruct (iswhite st a); cbn [length]; lia.
Qed.

(** A list of distinct objects that were white in [st] and are not in [st']. *)
Lemma filter_remove : forall (p : nat -> bool) (l : list nat) (d : nat), NoDup l -> In d l -> p d = true ->
  length (filter (fun x => p x && negb (Nat.eqb x d)) l) + 1 = length (filter p l).
Proof.
  induction l as [|a l IH]; intros d ND I P; [destruct I|].
  inversion ND as [|? ? NI ND']; subst. cbn [filter]. destruct I as [-> | I].
  - rewrite Nat.eqb_refl, P. cbn [andb negb length].
    assert (E : filter (fun x => p x && negb (Nat.eqb x d)) l = filter p l).
    { apply filter_ext_in. intros x Hx. destruct (Nat.eqb_spec x d) as [->|]; [contradiction|].
      rewrite andb_true_r. reflexivity. }
    rewrite E. lia.
  - specialize (IH d ND' I P).
    destruct (Nat.eqb_spec a d) as [->|]; [contradiction|]. rewrite andb_true_r.
    destruct (p a); cbn [length]; lia.
Qed.

Lemma filter_disjoint : forall (p q : nat -> bool) (l d : list nat), NoDup l -> NoDup d ->
  (forall x, In x l -> p x = true -> q x = true) ->
  (forall x, In x d -> In x l /\ q x = true /\ p x = false) ->
  length (filter p l) + length d <= length (filter q l).
Proof.
  intros p q l d ND NDd. revert q. induction d as [|a d IH]; intros q H D.
  - cbn [length]. pose proof (filter_le nat p q l H). lia.
  - inversion NDd as [|? ? NI NDd']; subst.
    destruct (D a (or_introl eq_refl)) as [Ia [Qa Pa]].
    specialize (IH NDd' (fun x => q x && negb (Nat.eqb x a))).
    assert (K : length (filter p l) + length d <= length (filter (fun x => q x && negb (Nat.eqb x a)) l)).
    { apply IH.
      - intros x Hx Px. rewrite (H x Hx Px). destruct (Nat.eqb_spec x a) as [->|]; [congruence | reflexivity].
      - intros x Hx. destruct (D x (or_intror Hx)) as [A [B C]]. split; [exact A|]. split; [|exact C].
        rewrite B. destruct (Nat.eqb_spec x a) as [->|]; [contradiction | reflexivity]. }
    pose proof (filter_remove q l a ND Ia Qa). cbn [length]. lia.
Qed.

(** ** Marking *)

(** [mrel st st']: [st'] is [st] after some white objects were marked; nothing but
    colours and the gray list changed.  An object that became black holds no white
    reference; one that became gray is in the gray list. *)
Record mrel (st st' : gst) : Prop := {
  r_rest : st' = set_heap (set_gray st (gray st')) (heap st');
  r_none : forall o, heap st o = None -> heap st' o = None;
  r_some : forall o ob, heap st o = Some ob -> exists ob', heap st' o = Some ob' /\ ob' = with_col ob (o_col ob') /\
     (o_col ob' = o_col ob \/
      (is_whitec (o_col ob) = true /\
       ((o_col ob' = Black /\ ~ linkable (o_kind ob) /\ forall r, oref ob r -> iswhite st' r = false) \/
        (o_col ob' = Gray /\ linkable (o_kind ob) /\ In o (gray st')))));
  r_gray : exists l, gray st' = l ++ gray st /\ NoDup l /\
     forall o, In o l -> iswhite st o = true /\ exists ob', heap st' o = Some ob' /\ o_col ob' = Gray /\ linkable (o_kind ob')
}.

Lemma mrel_refl : forall st, mrel st st.
Proof.
  intros st. constructor.
  - symmetry. apply gst_eta.
  - auto.
  - intros o ob H. exists ob. split; [exact H|]. split; [symmetry; apply with_col_same | left; reflexivity].
  - exists []. split; [reflexivity|]. split; [constructor | intros o []].
Qed.

Lemma mrel_white : forall st st' o, mrel st st' -> iswhite st' o = true -> iswhite st o = true.
Proof.
  intros st st' o M H. unfold iswhite in *. destruct (heap st o) as [ob|] eqn:E.
  - destruct (r_some _ _ M o ob E) as [ob' [E' [_ [C | [C _]]]]].
    + rewrite E' in H. rewrite <- C. exact H.
    + exact C.
  - rewrite (r_none _ _ M o E) in H. discriminate.
Qed.

Lemma mrel_nw : forall st st' o, mrel st st' -> iswhite st o = false -> iswhite st' o = false.
Proof.
  intros. destruct (iswhite st' o) eqn:E; [|reflexivity].
  rewrite (mrel_white _ _ _ H E) in H0. discriminate.
Qed.

Lemma mrel_some_inv : forall st st' o ob', mrel st st' -> heap st' o = Some ob' ->
  exists ob, heap st o = Some ob /\ ob' = with_col ob (o_col ob') /\
   (o_col ob' = o_col ob \/
      (is_whitec (o_col ob) = true /\
       ((o_col ob' = Black /\ ~ linkable (o_kind ob) /\ forall r, oref ob r -> iswhite st' r = false) \/
        (o_col ob' = Gray /\ linkable (o_kind ob) /\ In o (gray st'))))).
Proof.
  intros st st' o ob' M H. destruct (heap st o) as [ob|] eqn:E.
  - destruct (r_some _ _ M o ob E) as [ob2 [E2 K]]. rewrite H in E2. inversion E2; subst ob2.
    exists ob. split; [reflexivity | exact K].
  - rewrite (r_none _ _ M o E) in H. discriminate.
Qed.

Lemma mrel_kind : forall st st' o, mrel st st' -> kind_of st' o = kind_of st o.
Proof.
  intros st st' o M. unfold kind_of. destruct (heap st o) as [ob|] eqn:E.
  - destruct (r_some _ _ M o ob E) as [ob2 [E2 [K _]]]. rewrite E2, K. reflexivity.
  - rewrite (r_none _ _ M o E). reflexivity.
Qed.

Lemma mrel_fields : forall st st', mrel st st' ->
  nextid st' = nextid st /\ uvs st' = uvs st /\ nextuv st' = nextuv st /\ cw st' = cw st /\ gcs st' = gcs st /\
  allgc st' = allgc st /\ finobj st' = finobj st /\ tobefnz st' = tobefnz st /\ fixedgc st' = fixedgc st /\
  grayagain st' = grayagain st /\ weak st' = weak st /\ allweak st' = allweak st /\ ephemeron st' = ephemeron st /\
  sweepgc st' = sweepgc st /\ twups st' = twups st /\ mainth st' = mainth st /\ curth st' = curth st /\
  registry st' = registry st /\ mts st' = mts st /\ strcache st' = strcache st /\ memerr st' = memerr st.
Proof. intros st st' M. rewrite (r_rest _ _ M). repeat split. Qed.

Ltac mfields M :=
  let H := fresh "F" in pose proof (mrel_fields _ _ M) as H;
  destruct H as [?Fnextid [?Fuvs [?Fnextuv [?Fcw [?Fgcs [?Fallgc [?Ffinobj [?Ftobefnz [?Ffixed [?Fga [?Fweak [?Fallweak [?Feph [?Fsw [?Ftw [?Fmain [?Fcur [?Freg [?Fmts [?Fsc ?Fme]]]]]]]]]]]]]]]]]]]].

Lemma mrel_trans : forall a b c, mrel a b -> mrel b c -> mrel a c.
Proof.
  intros a b c M1 M2. constructor.
  - rewrite (r_rest _ _ M2) at 1. rewrite (r_rest _ _ M1) at 1. reflexivity.
  - intros o H. apply (r_none _ _ M2), (r_none _ _ M1), H.
  - intros o ob H. destruct (r_some _ _ M1 o ob H) as [ob1 [H1 [W1 C1]]].
    destruct (r_some _ _ M2 o ob1 H1) as [ob2 [H2 [W2 C2]]]. exists ob2. split; [exact H2|]. split.
    { rewrite W2 at 1. rewrite W1. rewrite with_col2. reflexivity. }
    assert (Kk : o_kind ob1 = o_kind ob) by (rewrite W1; reflexivity).
    destruct C1 as [C1 | [C1 D1]].
    + destruct C2 as [C2 | [C2 D2]]; [left; congruence|]. right. rewrite C1 in C2. split; [exact C2|].
      destruct D2 as [[B [L R]] | [B [L I]]].
      * left. rewrite Kk in L. split; [exact B|]. split; [exact L|]. intros r Hr. apply R.
        rewrite W1. apply oref_with_col. exact Hr.
      * right. rewrite Kk in L. auto.
    + right. split; [exact C1|]. destruct C2 as [C2 | [C2 D2]].
      * destruct D1 as [[B [L R]] | [B [L I]]].
        -- left. split; [congruence|]. split; [exact L|]. intros r Hr. apply (mrel_nw _ _ _ M2), R, Hr.
        -- right. split; [congruence|]. split; [exact L|].
           destruct (r_gray _ _ M2) as [l [G _]]. rewrite G. apply in_or_app. right. exact I.
      * destruct D1 as [[B _] | [B _]]; rewrite B in C2; discriminate.
  - destruct (r_gray _ _ M1) as [l1 [G1 [N1 P1]]]. destruct (r_gray _ _ M2) as [l2 [G2 [N2 P2]]].
    exists (l2 ++ l1). split; [rewrite G2, G1, app_assoc; reflexivity|]. split.
    + apply NoDup_app.
      * exact N2.
      * exact N1.
      * intros x I2 I1. destruct (P2 x I2) as [W _]. destruct (P1 x I1) as [_ [ob' [E [C _]]]].
        unfold iswhite in W. rewrite E, C in W. discriminate.
    + intros o I. apply in_app_or in I. destruct I as [I | I].
      * destruct (P2 o I) as [W Q]. split; [apply (mrel_white _ _ _ M1), W | exact Q].
      * destruct (P1 o I) as [W [ob1 [E [C L]]]]. split; [exact W|].
        destruct (r_some _ _ M2 o ob1 E) as [ob2 [E2 [W2 C2]]]. exists ob2. split; [exact E2|].
        assert (Kk : o_kind ob2 = o_kind ob1) by (rewrite W2; reflexivity).
        rewrite Kk. split; [|exact L]. destruct C2 as [C2 | [C2 _]]; [congruence|]. rewrite C in C2. discriminate.
Qed.

Lemma typ_mrel : forall st st', typ st -> mrel st st' -> typ st'.
Proof.
  intros st st' T M. mfields M. constructor.
  - intros o ob H. destruct (mrel_some_inv _ _ _ _ M H) as [ob0 [H0 [W _]]].
    rewrite W. apply kwf_with_col. apply (t_kwf _ T o), H0.
  - intros o ob m H Hm. destruct (mrel_some_inv _ _ _ _ M H) as [ob0 [H0 [W _]]].
    rewrite (mrel_kind _ _ _ M). apply (t_meta _ T o ob0); [exact H0|]. rewrite W in Hm. exact Hm.
  - intros o ob H. destruct (mrel_some_inv _ _ _ _ M H) as [ob0 [H0 [W _]]]. rewrite Fnextid.
    apply (t_fresh _ T o ob0 H0).
Qed.

Lemma mrel_count : forall st st', typ st -> mrel st st' ->
  cwhite st' + length (gray st') <= cwhite st + length (gray st).
Proof.
  intros st st' T M. mfields M. destruct (r_gray _ _ M) as [l [G [N P]]].
  rewrite G, app_length. unfold cwhite. rewrite Fnextid.
  pose proof (filter_disjoint (iswhite st') (iswhite st) (seq 0 (nextid st)) l (seq_NoDup _ _) N) as K.
  assert (length (filter (iswhite st') (seq 0 (nextid st))) + length l <= length (filter (iswhite st) (seq 0 (nextid st)))); [|lia].
  apply K.
  - intros x _ H. apply (mrel_white _ _ _ M), H.
  - intros x I. destruct (P x I) as [W [ob' [E [C _]]]]. split; [|split; [exact W|]].
    + destruct (iswhite_some _ _ W) as [ob [w [Hob _]]]. apply in_seq. pose proof (t_fresh _ T _ _ Hob). lia.
    + unfold iswhite. rewrite E, C. reflexivity.
Qed.

Lemma mrel_count_lt : forall st st' o, typ st -> mrel st st' -> iswhite st o = true -> iswhite st' o = false ->
  cwhite st' < cwhite st.
Proof.
  intros st st' o T M W N. mfields M. unfold cwhite. rewrite Fnextid. apply (filter_lt _ _ _ _ o).
  - intros x _. apply mrel_white, M.
  - destruct (iswhite_some _ _ W) as [ob [w [Hob _]]]. apply in_seq. pose proof (t_fresh _ T _ _ Hob). lia.
  - exact W.
  - exact N.
Qed.

Lemma mrel_count_le : forall st st', mrel st st' -> cwhite st' <= cwhite st.
Proof.
  intros st st' M. mfields M. unfold cwhite. rewrite Fnextid. apply filter_le.
  intros x _. apply mrel_white, M.
Qed.

Lemma heap_link_gray : forall st o x,
  heap (link_gray st o) x = if Nat.eqb x o then option_map (fun b => with_col b Gray) (heap st o) else heap st x.
Proof. intros. unfold link_gray. rewrite heap_setcol. reflexivity. Qed.

Lemma gray_setcol : forall st o c, gray (setcol st o c) = gray st.
Proof. intros. unfold setcol. rewrite modify_rest. reflexivity. Qed.

Lemma mrel_link_gray : forall st o ob, heap st o = Some ob -> iswhite st o = true -> linkable (o_kind ob) ->
  mrel st (link_gray st o) /\ iswhite (link_gray st o) o = false.
Proof.
  intros st o ob H W L. assert (Wc : is_whitec (o_col ob) = true) by (unfold iswhite in W; rewrite H in W; exact W).
  assert (G : gray (link_gray st o) = o :: gray st).
  { unfold link_gray. rewrite gray_setcol. reflexivity. }
  split.
  - constructor.
    + unfold link_gray, setcol. rewrite modify_rest. cbn. reflexivity.
    + intros x E. rewrite heap_link_gray. destruct (Nat.eqb_spec x o) as [->|]; [rewrite E; reflexivity | exact E].
    + intros x xb E. rewrite heap_link_gray. destruct (Nat.eqb_spec x o) as [->|].
      * rewrite E. exists (with_col xb Gray). split; [reflexivity|]. split; [reflexivity|].
        rewrite H in E. inversion E; subst xb. right. split; [exact Wc|]. right. split; [reflexivity|].
        split; [exact L|]. rewrite G. left; reflexivity.
      * exists xb. split; [exact E|]. split; [symmetry; apply with_col_same | left; reflexivity].
    + exists [o]. split; [exact G|]. split; [repeat constructor; intros []|].
      intros x [<- | []]. split; [exact W|]. exists (with_col ob Gray). rewrite heap_link_gray, Nat.eqb_refl, H.
      split; [reflexivity|]. split; [reflexivity | exact L].
  - unfold iswhite. rewrite heap_link_gray, Nat.eqb_refl, H. reflexivity.
Qed.

Lemma mrel_mark_meta : forall st m, (forall t, m = Some t -> kind_of st t = Some KTable) ->
  mrel st (mark_meta st m) /\ (forall t, m = Some t -> iswhite (mark_meta st m) t = false).
Proof.
  intros st [t|] K; cbn [mark_meta].
  - destruct (iswhite st t) eqn:W.
    + specialize (K t eq_refl). unfold kind_of in K. destruct (heap st t) as [tb|] eqn:E; [|discriminate].
      inversion K. destruct (mrel_link_gray st t tb E W) as [A B]; [rewrite H0; exact I|].
      split; [exact A|]. intros t' [= <-]. exact B.
    + split; [apply mrel_refl|]. intros t' [= <-]. exact W.
  - split; [apply mrel_refl | intros t' [=]].
Qed.

(** Painting a leaf black, when its references will be marked. *)
Lemma heap_set2black : forall st o x,
  heap (set2black st o) x = if Nat.eqb x o then option_map (fun b => with_col b Black) (heap st o) else heap st x.
Proof. intros. apply heap_setcol. Qed.

Lemma iswhite_set2black : forall st o x, iswhite (set2black st o) x = if Nat.eqb x o then false else iswhite st x.
Proof.
  intros. unfold iswhite. rewrite heap_set2black. destruct (Nat.eqb_spec x o) as [->|]; [|reflexivity].
  destruct (heap st o); reflexivity.
Qed.

(** [mrel] with one exception: [o] has become black although its references may
    still be white. *)
Record mrelx (x : id) (st st' : gst) : Prop := {
  x_rest : st' = set_heap (set_gray st (gray st')) (heap st');
  x_none : forall o, heap st o = None -> heap st' o = None;
  x_some : forall o ob, heap st o = Some ob -> exists ob', heap st' o = Some ob' /\ ob' = with_col ob (o_col ob') /\
     (o_col ob' = o_col ob \/
      (is_whitec (o_col ob) = true /\
       ((o_col ob' = Black /\ ~ linkable (o_kind ob) /\ (o <> x -> forall r, oref ob r -> iswhite st' r = false)) \/
        (o_col ob' = Gray /\ linkable (o_kind ob) /\ In o (gray st')))));
  x_gray : exists l, gray st' = l ++ gray st /\ NoDup l /\
     forall o, In o l -> iswhite st o = true /\ exists ob', heap st' o = Some ob' /\ o_col ob' = Gray /\ linkable (o_kind ob')
}.

Lemma mrelx_fix : forall x st st' ob, mrelx x st st' -> heap st x = Some ob ->
  (forall r, oref ob r -> iswhite st' r = false) -> mrel st st'.
Proof.
  intros x st st' ob M H R. constructor; try apply M.
  - intros o b E. destruct (x_some _ _ _ M o b E) as [ob' [E' [W C]]]. exists ob'. split; [exact E'|]. split; [exact W|].
    destruct C as [C | [C [[B [L Q]] | D]]]; [left; exact C | right | right; split; [exact C | right; exact D]].
    split; [exact C|]. left. split; [exact B|]. split; [exact L|].
    destruct (Nat.eq_dec o x) as [->|n]; [|apply Q, n].
    rewrite H in E. inversion E; subst b. exact R.
Qed.

Lemma mrelx_trans : forall x a b c, mrelx x a b -> mrel b c -> mrelx x a c.
Proof.
  intros x a b c M1 M2. constructor.
  - rewrite (r_rest _ _ M2) at 1. rewrite (x_rest _ _ _ M1) at 1. reflexivity.
  - intros o H. apply (r_none _ _ M2), (x_none _ _ _ M1), H.
  - intros o ob H. destruct (x_some _ _ _ M1 o ob H) as [ob1 [H1 [W1 C1]]].
    destruct (r_some _ _ M2 o ob1 H1) as [ob2 [H2 [W2 C2]]]. exists ob2. split; [exact H2|]. split.
    { rewrite W2 at 1. rewrite W1. rewrite with_col2. reflexivity. }
    assert (Kk : o_kind ob1 = o_kind ob) by (rewrite W1; reflexivity).
    destruct C1 as [C1 | [C1 D1]].
    + destruct C2 as [C2 | [C2 D2]]; [left; congruence|]. right. rewrite C1 in C2. split; [exact C2|].
      destruct D2 as [[B [L R]] | [B [L I]]].
      * left. rewrite Kk in L. split; [exact B|]. split; [exact L|]. intros _ r Hr. apply R.
        rewrite W1. apply oref_with_col. exact Hr.
      * right. rewrite Kk in L. auto.
    + right. split; [exact C1|]. destruct C2 as [C2 | [C2 D2]].
      * destruct D1 as [[B [L R]] | [B [L I]]].
        -- left. split; [congruence|]. split; [exact L|]. intros n r Hr. apply (mrel_nw _ _ _ M2), (R n), Hr.
        -- right. split; [congruence|]. split; [exact L|].
           destruct (r_gray _ _ M2) as [l [G _]]. rewrite G. apply in_or_app. right. exact I.
      * destruct D1 as [[B _] | [B _]]; rewrite B in C2; discriminate.
  - destruct (x_gray _ _ _ M1) as [l1 [G1 [N1 P1]]]. destruct (r_gray _ _ M2) as [l2 [G2 [N2 P2]]].
    exists (l2 ++ l1). split; [rewrite G2, G1, app_assoc; reflexivity|]. split.
    + apply NoDup_app.
      * exact N2.
      * exact N1.
      * intros y I2 I1. destruct (P2 y I2) as [W _]. destruct (P1 y I1) as [_ [ob' [E [C _]]]].
        unfold iswhite in W. rewrite E, C in W. discriminate.
    + intros o I. apply in_app_or in I. destruct I as [I | I].
      * destruct (P2 o I) as [W Q]. split; [|exact Q].
        unfold iswhite in *. destruct (heap a o) as [ob|] eqn:E.
        -- destruct (x_some _ _ _ M1 o ob E) as [ob' [E' [_ [C | [C _]]]]].
           ++ rewrite E' in W. rewrite <- C. exact W.
           ++ exact C.
        -- rewrite (x_none _ _ _ M1 o E) in W. discriminate.
      * destruct (P1 o I) as [W [ob1 [E [C L]]]]. split; [exact W|].
        destruct (r_some _ _ M2 o ob1 E) as [ob2 [E2 [W2 C2]]]. exists ob2. split; [exact E2|].
        assert (Kk : o_kind ob2 = o_kind ob1) by (rewrite W2; reflexivity).
        rewrite Kk. split; [|exact L]. destruct C2 as [C2 | [C2 _]]; [congruence|]. rewrite C in C2. discriminate.
Qed.

Lemma mrelx_black : forall st st1 o ob, mrel st st1 -> heap st o = Some ob -> iswhite st o = true ->
  ~ linkable (o_kind ob) -> mrelx o st (set2black st1 o).
Proof.
  intros st st1 o ob M H W L.
  assert (G : gray (set2black st1 o) = gray st1) by apply gray_setcol.
  constructor.
  - unfold set2black, setcol. rewrite modify_rest. cbn. rewrite (r_rest _ _ M) at 1. reflexivity.
  - intros x E. rewrite heap_set2black. destruct (Nat.eqb_spec x o) as [->|]; [congruence | apply (r_none _ _ M), E].
  - intros x xb E. rewrite heap_set2black. destruct (r_some _ _ M x xb E) as [xb' [E' [Wc C]]].
    destruct (Nat.eqb_spec x o) as [->|n].
    + rewrite E'. exists (with_col xb' Black). split; [reflexivity|].
      rewrite H in E. inversion E; subst xb. split.
      * rewrite Wc. rewrite with_col2. reflexivity.
      * right. split.
        -- unfold iswhite in W. rewrite H in W. exact W.
        -- left. split; [reflexivity|]. split; [exact L | intros n; destruct n; reflexivity].
    + exists xb'. split; [exact E'|]. split; [exact Wc|]. destruct C as [C | [C [[B [L' R]] | D]]].
      * left; exact C.
      * right. split; [exact C|]. left. split; [exact B|]. split; [exact L'|]. intros _ r Hr.
        rewrite iswhite_set2black. destruct (Nat.eqb r o); [reflexivity | apply R, Hr].
      * right. split; [exact C|]. right. rewrite G. exact D.
  - destruct (r_gray _ _ M) as [l [E [N P]]]. exists l. rewrite G. split; [exact E|]. split; [exact N|].
    intros x I. destruct (P x I) as [Wx [xb' [E' [C L']]]]. split; [exact Wx|].
    assert (n : x <> o).
    { intros ->. destruct (r_some _ _ M o ob H) as [ob2 [E2 [W2 _]]]. rewrite E' in E2. inversion E2; subst ob2.
      rewrite W2 in L'. cbn in L'. contradiction. }
    exists xb'. rewrite heap_set2black. apply Nat.eqb_neq in n. rewrite n. auto.
Qed.

Lemma mark_obj_ok : forall n st o, typ st -> iswhite st o = true -> cwhite st <= n ->
  mrel st (mark_obj n st o) /\ iswhite (mark_obj n st o) o = false.
Proof.
  induction n as [|n IH]; intros st o T W Hn.
  - exfalso. destruct (iswhite_some _ _ W) as [ob [w [E C]]].
    assert (0 < cwhite st); [|lia]. unfold cwhite.
    assert (I : In o (filter (iswhite st) (seq 0 (nextid st)))).
    { apply filter_In. split; [|exact W]. apply in_seq. pose proof (t_fresh _ T _ _ E). lia. }
    destruct (filter (iswhite st) (seq 0 (nextid st))); [destruct I | cbn; lia].
  - cbn [mark_obj]. destruct (iswhite_some _ _ W) as [ob [w [E C]]]. rewrite E.
    pose proof (t_kwf _ T _ _ E) as Kw. unfold kwf in Kw.
    assert (Leaf : ~ linkable (o_kind ob) -> forall st1, mrel st st1 -> mrelx o st (set2black st1 o))
      by (intros L st1 M; apply (mrelx_black st st1 o ob M E W L)).
    assert (Chain : (o_kind ob = KUdata \/ o_kind ob = KArray) ->
       let st1 := set2black (mark_meta st (o_meta ob)) o in
       let st2 := match o_vals ob with VObj u :: _ => if iswhite st1 u then mark_obj n st1 u else st1 | _ => st1 end in
       mrel st st2 /\ iswhite st2 o = false).
    { intros Kd st1 st2.
      destruct (mrel_mark_meta st (o_meta ob)) as [Mm Wm]; [intros t Et; apply (t_meta _ T o ob t E Et)|].
      assert (Lk : ~ linkable (o_kind ob)) by (destruct Kd as [-> | ->]; exact (fun x => x)).
      pose proof (Leaf Lk _ Mm) as Mx. fold st1 in Mx.
      assert (K2 : length (o_vals ob) <= 1 /\ o_hash ob = [] /\ o_upv ob = [] /\ o_cache ob = None)
        by (destruct Kd as [Kd | Kd]; rewrite Kd in Kw; tauto).
      destruct K2 as [Lv [Lh [Lu Lc]]].
      assert (W1 : iswhite st1 o = false) by (unfold st1; rewrite iswhite_set2black, Nat.eqb_refl; reflexivity).
      assert (Meta : forall t, o_meta ob = Some t -> iswhite st1 t = false).
      { intros t Et. unfold st1. rewrite iswhite_set2black. destruct (Nat.eqb t o); [reflexivity | apply Wm, Et]. }
      assert (Done : forall s, mrelx o st s -> (forall t, o_meta ob = Some t -> iswhite s t = false) ->
                 (forall u, In (VObj u) (o_vals ob) -> iswhite s u = false) -> mrel st s).
      { intros s Ms Am Av. apply (mrelx_fix o st s ob Ms E). intros r [R | [R | [[v R] | [[k R] | R]]]].
        - apply Am, R.
        - apply Av, R.
        - rewrite Lh in R. destruct R.
        - rewrite Lh in R. destruct R.
        - rewrite Lc in R. discriminate. }
      unfold st2. destruct (o_vals ob) as [|v vs] eqn:Ev.
      - split; [|exact W1]. apply (Done st1 Mx Meta). intros u [].
      - assert (vs = []) by (destruct vs; [reflexivity | cbn in Lv; lia]). subst vs.
        destruct v as [|z|u].
        + split; [|exact W1]. apply (Done st1 Mx Meta). intros u [U | []]; discriminate.
        + split; [|exact W1]. apply (Done st1 Mx Meta). intros u [U | []]; discriminate.
        + destruct (iswhite st1 u) eqn:Wu.
          * assert (Mid : typ st1 /\ cwhite st1 < cwhite st).
            { assert (T1 : typ (mark_meta st (o_meta ob))) by (apply (typ_mrel st); assumption).
              split.
              - unfold st1. constructor.
                + intros x xb. rewrite heap_set2black. destruct (Nat.eqb_spec x o) as [->|].
                  * destruct (heap (mark_meta st (o_meta ob)) o) as [yb|] eqn:Ey; [|discriminate].
                    intros [= <-]. apply kwf_with_col. apply (t_kwf _ T1 o), Ey.
                  * apply (t_kwf _ T1).
                + intros x xb m Hx Hm.
                  assert (Q : forall y, kind_of (set2black (mark_meta st (o_meta ob)) o) y = kind_of (mark_meta st (o_meta ob)) y).
                  { intros y. unfold kind_of. rewrite heap_set2black. destruct (Nat.eqb_spec y o) as [->|]; [|reflexivity].
                    destruct (heap (mark_meta st (o_meta ob)) o); reflexivity. }
                  rewrite Q. rewrite heap_set2black in Hx. destruct (Nat.eqb_spec x o) as [->|].
                  * destruct (heap (mark_meta st (o_meta ob)) o) as [yb|] eqn:Ey; [|discriminate].
                    inversion Hx; subst xb. apply (t_meta _ T1 o yb m Ey). exact Hm.
                  * apply (t_meta _ T1 x xb m Hx Hm).
                + intros x xb. rewrite heap_set2black. unfold set2black, setcol. rewrite modify_rest. cbn.
                  destruct (Nat.eqb_spec x o) as [->|].
                  * destruct (heap (mark_meta st (o_meta ob)) o) as [yb|] eqn:Ey; [|discriminate].
                    intros _. apply (t_fresh _ T1 o yb Ey).
                  * apply (t_fresh _ T1).
              - assert (Nx : nextid st1 = nextid st).
                { unfold st1, set2black, setcol. rewrite modify_rest. cbn. apply (mrel_fields _ _ Mm). }
                unfold cwhite. rewrite Nx. apply (filter_lt _ _ _ _ o).
                + intros y _. unfold st1. rewrite iswhite_set2black. destruct (Nat.eqb y o); [discriminate|].
                  apply (mrel_white _ _ _ Mm).
                + apply in_seq. pose proof (t_fresh _ T _ _ E). lia.
                + exact W.
                + exact W1. }
            destruct Mid as [T1 Lt]. destruct (IH st1 u T1 Wu) as [M2 Wu2]; [lia|].
            split; [|apply (mrel_nw _ _ _ M2), W1].
            apply Done.
            -- apply (mrelx_trans o st st1); assumption.
            -- intros t Et. apply (mrel_nw _ _ _ M2), Meta, Et.
            -- intros u' [U | []]. inversion U; subst u'. exact Wu2.
          * split; [|exact W1]. apply (Done st1 Mx Meta). intros u' [U | []]. inversion U; subst u'. exact Wu. }
    destruct (o_kind ob) eqn:Kd.
    + (* string *)
      pose proof (Leaf (fun x => x) st (mrel_refl st)) as Mx.
      split; [|rewrite iswhite_set2black, Nat.eqb_refl; reflexivity].
      destruct Kw as [A1 [A2 [A3 [A4 [A5 _]]]]].
      apply (mrelx_fix o _ _ ob Mx E). intros r [R | [R | [[v R] | [[k R] | R]]]].
      * rewrite A1 in R. discriminate.
      * rewrite A2 in R. destruct R.
      * rewrite A3 in R. destruct R.
      * rewrite A3 in R. destruct R.
      * rewrite A5 in R. discriminate.
    + apply Chain. left; reflexivity.
    + apply Chain. right; reflexivity.
    + apply (mrel_link_gray st o ob E W). rewrite Kd. exact I.
    + apply (mrel_link_gray st o ob E W). rewrite Kd. exact I.
    + apply (mrel_link_gray st o ob E W). rewrite Kd. exact I.
    + apply (mrel_link_gray st o ob E W). rewrite Kd. exact I.
    + apply (mrel_link_gray st o ob E W). rewrite Kd. exact I.
Qed.

Lemma mark_ok : forall st o, typ st -> mrel st (mark st o) /\ iswhite (mark st o) o = false.
Proof.
  intros st o T. unfold mark. destruct (iswhite st o) eqn:W.
  - apply mark_obj_ok; [exact T | exact W | apply cwhite_le_next].
  - split; [apply mrel_refl | exact W].
Qed.

Lemma mark_val_ok : forall st v, typ st -> mrel st (mark_val st v) /\ (forall o, v = VObj o -> iswhite (mark_val st v) o = false).
Proof.
  intros st v T. destruct v; cbn [mark_val]; try (split; [apply mrel_refl | intros ? [=]]).
  destruct (mark_ok st o T) as [A B]. split; [exact A|]. intros x [= <-]. exact B.
Qed.

Lemma mark_opt_ok : forall st v, typ st -> mrel st (mark_opt st v) /\ (forall o, v = Some o -> iswhite (mark_opt st v) o = false).
Proof.
  intros st [o|] T; cbn [mark_opt]; [|split; [apply mrel_refl | intros ? [=]]].
  destruct (mark_ok st o T) as [A B]. split; [exact A|]. intros x [= <-]. exact B.
Qed.

Lemma mark_key_ok : forall st k, typ st -> mrel st (mark_key st k) /\ (forall o, k = KyObj o -> iswhite (mark_key st k) o = false).
Proof.
  intros st v T. destruct v; cbn [mark_key]; try (split; [apply mrel_refl | intros ? [=]]).
  destruct (mark_ok st o T) as [A B]. split; [exact A|]. intros x [= <-]. exact B.
Qed.

(** Marking everything in a list. *)
Lemma fold_mrel : forall (A : Type) (f : gst -> A -> gst) (P : A -> id -> Prop) l st, typ st ->
  (forall st a, typ st -> mrel st (f st a) /\ forall o, P a o -> iswhite (f st a) o = false) ->
  mrel st (fold_left f l st) /\ forall a o, In a l -> P a o -> iswhite (fold_left f l st) o = false.
Proof.
  induction l as [|a l IH]; intros st T H; cbn [fold_left].
  - split; [apply mrel_refl | intros a o []].
  - destruct (H st a T) as [M1 Q1]. destruct (IH (f st a) (typ_mrel _ _ T M1) H) as [M2 Q2].
    split; [apply (mrel_trans _ _ _ M1 M2)|].
    intros b o [<- | I] Pb; [apply (mrel_nw _ _ _ M2), Q1, Pb | apply (Q2 b o I Pb)].
Qed.

Lemma mark_vals_ok : forall l st, typ st ->
  mrel st (mark_vals st l) /\ forall o, In (VObj o) l -> iswhite (mark_vals st l) o = false.
Proof.
  intros l st T. destruct (fold_mrel val mark_val (fun v o => v = VObj o) l st T (fun s v => mark_val_ok s v)) as [A B].
  split; [exact A|]. intros o I. apply (B (VObj o) o I eq_refl).
Qed.

Lemma mark_list_ok : forall l st, typ st ->
  mrel st (fold_left mark l st) /\ forall o, In o l -> iswhite (fold_left mark l st) o = false.
Proof.
  intros l st T. destruct (fold_mrel id mark (fun v o => v = o) l st T) as [A B].
  { intros s a Ts. destruct (mark_ok s a Ts) as [P Q]. split; [exact P | intros o <-; exact Q]. }
  split; [exact A|]. intros o I. apply (B o o I eq_refl).
Qed.

Lemma mark_opts_ok : forall l st, typ st ->
  mrel st (fold_left mark_opt l st) /\ forall o, In (Some o) l -> iswhite (fold_left mark_opt l st) o = false.
Proof.
  intros l st T. destruct (fold_mrel (option id) mark_opt (fun v o => v = Some o) l st T (fun s v => mark_opt_ok s v)) as [A B].
  split; [exact A|]. intros o I. apply (B (Some o) o I eq_refl).
Qed.

Lemma mark_entry_ok : forall st e, typ st -> mrel st (mark_entry st e) /\
  (forall o, snd e <> VNil /\ (fst e = KyObj o \/ snd e = VObj o) -> iswhite (mark_entry st e) o = false).
Proof.
  intros st [k v] T. unfold mark_entry. cbn [fst snd]. destruct (isnil v) eqn:N.
  - split; [apply mrel_refl|]. intros o [H _]. destruct v; try discriminate. congruence.
  - destruct (mark_key_ok st k T) as [M1 Q1]. destruct (mark_val_ok _ v (typ_mrel _ _ T M1)) as [M2 Q2].
    split; [apply (mrel_trans _ _ _ M1 M2)|]. intros o [_ [H | H]].
    + apply (mrel_nw _ _ _ M2), Q1, H.
    + apply Q2, H.
Qed.

Lemma mark_entries_ok : forall l st, typ st ->
  mrel st (fold_left mark_entry l st) /\
  forall k v o, In (k, v) l -> v <> VNil -> k = KyObj o \/ v = VObj o -> iswhite (fold_left mark_entry l st) o = false.
Proof.
  intros l st T.
  destruct (fold_mrel _ mark_entry (fun e o => snd e <> VNil /\ (fst e = KyObj o \/ snd e = VObj o)) l st T (fun s v => mark_entry_ok s v)) as [A B].
  split; [exact A|]. intros k v o I N H. apply (B (k, v) o I). split; assumption.
Qed.

Lemma iscleared_ok : forall st o, typ st -> mrel st (fst (iscleared st o)) /\
  (snd (iscleared st o) = false -> forall x, o = Some x -> iswhite (fst (iscleared st o)) x = false) /\
  (snd (iscleared st o) = true -> exists x, o = Some x /\ iswhite st x = true /\ kind_of st x <> Some KStr /\ fst (iscleared st o) = st).
Proof.
  intros st [o|] T; cbn [iscleared]; [|cbn; split; [apply mrel_refl | split; [intros _ x [=] | intros [=]]]].
  destruct (kind_of st o) as [[]|] eqn:K; cbn [fst snd];
    try (split; [apply mrel_refl|]; split;
         [intros H x [= <-]; exact H | intros H; exists o; split; [reflexivity|]; split; [exact H|]; split; [congruence | reflexivity]]).
  destruct (mark_ok st o T) as [A B]. split; [exact A|]. split; [intros _ x [= <-]; exact B | intros [=]].
Qed.
