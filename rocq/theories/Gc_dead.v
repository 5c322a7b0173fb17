(** Objects the collector never marks. *)
From Coq Require Import ZArith List Bool Arith Lia.
From Verif Require Import Base Gc_model Gc_spec Gc_facts Gc_tri.
Import ListNotations.
Local Open Scope nat_scope.

Section dead.
(** A set of objects that nothing outside refers to ([full]), or refers to other
    than weakly. *)
Variable D : id -> Prop.
Variable full : bool.

Definition okv (v : val) : Prop := forall b, v = VObj b -> ~ D b.
Definition okk (k : key) : Prop := forall b, k = KyObj b -> ~ D b.
Definition okvals (ob : obj) : Prop := forall b, In (VObj b) (o_vals ob) -> ~ D b.
Definition strongc (md : bool * bool) (ob : obj) : Prop :=
  match o_kind ob with
  | KTable =>
      match md with
      | (false, false) => okvals ob /\ forall k v, In (k, v) (o_hash ob) -> v <> VNil -> okk k /\ okv v
      | (false, true) => forall k v, In (k, v) (o_hash ob) -> v <> VNil -> okk k
      | (true, false) => okvals ob /\ forall k v, In (k, v) (o_hash ob) -> v <> VNil -> okk k -> okv v
      | (true, true) => True
      end
  | _ => okvals ob
  end.
Definition strs (st : gst) (ob : obj) : Prop := forall s, kind_of st s = Some KStr ->
  In (VObj s) (o_vals ob) \/ (exists k, In (k, VObj s) (o_hash ob)) \/ (exists v, In (KyObj s, v) (o_hash ob) /\ v <> VNil) -> ~ D s.
Definition fullc (ob : obj) : Prop := forall b, oref ob b -> ~ D b.
Definition cont (st : gst) (ob : obj) : Prop :=
  (forall m, o_meta ob = Some m -> ~ D m) /\
  if full then fullc ob else strongc (weakmode st ob) ob /\ strs st ob.
Lemma cont_strong : forall st ob, cont st ob ->
  (forall m, o_meta ob = Some m -> ~ D m) /\ strongc (weakmode st ob) ob /\ strs st ob.
Proof.
  intros st ob [A B]. split; [exact A|]. destruct full; [|exact B]. unfold fullc, oref in B. split.
  - assert (V : okvals ob) by (intros b I; apply B; tauto).
    unfold strongc. destruct (o_kind ob); try exact V.
    destruct (weakmode st ob) as [[|] [|]]; [exact I| | |].
    + split; [exact V|]. intros k v I _ _ b ->. apply B. right. right. right. left. exists k. exact I.
    + intros k v I _ b ->. apply B. right. right. left. exists v. exact I.
    + split; [exact V|]. intros k v I _. split; intros b ->; apply B; [right; right; left; exists v | right; right; right; left; exists k]; exact I.
  - intros s _ [I|[[k I]|[v [I _]]]]; apply B; [tauto | right; right; right; left; exists k; exact I | right; right; left; exists v; exact I].
Qed.

Definition strk (st : gst) (k : key) : Prop := forall s, k = KyObj s -> kind_of st s = Some KStr -> ~ D s.
Definition strv (st : gst) (v : val) : Prop := forall s, v = VObj s -> kind_of st s = Some KStr -> ~ D s.
(** What is asked of the tables in 'ephemeron'. *)
Definition ephm (st : gst) (o : id) : Prop := forall ob, heap st o = Some ob ->
  okvals ob /\ forall k v, In (k, v) (o_hash ob) -> v <> VNil -> strk st k /\ (okk k -> okv v).

Record Q (st : gst) : Prop := {
  d_obj : forall o ob, heap st o = Some ob -> ~ D o -> cont st ob;
  d_upv : forall o ob u, heap st o = Some ob -> ~ D o -> In u (o_upv ob) \/ In u (o_open ob) -> okv (uv_val st u);
  d_touch : forall u th i, uvs st u = Some (UOpen th i true) -> okv (uv_val st u);
  d_root : forall o, root st o -> ~ D o;
  d_fin : forall o, In o (finobj st) -> ~ D o;
  d_list : forall o, In o (glists [] st) -> ~ D o;
  d_eph : forall o, In o (ephemeron st) -> ephm st o
}.
Definition same (st st' : gst) : Prop := forall x, D x -> option_map o_col (heap st' x) = option_map o_col (heap st x).
Definition KQ (st st' : gst) : Prop := Q st' /\ same st st' /\ forall x, ephm st x -> ephm st' x.
Definition M (st : gst) : Prop := Q st /\ forall x, D x -> iswhite st x = true.

Lemma KQ_refl : forall st, Q st -> KQ st st.
Proof. intros st H. split; [exact H|]. split; [intros x _; reflexivity | auto]. Qed.
Lemma KQ_trans : forall a b c, KQ a b -> KQ b c -> KQ a c.
Proof. intros a b c [_ [A F]] [B [C G]]. split; [exact B|]. split; [intros x Dx; rewrite (C x Dx); apply A, Dx | auto]. Qed.
Lemma M_KQ : forall st st', M st -> KQ st st' -> M st'.
Proof. intros st st' [A B] [C [E _]]. split; [exact C|]. intros x Dx. specialize (B x Dx). specialize (E x Dx). unfold iswhite in *.
  destruct (heap st x), (heap st' x); cbn in *; try discriminate. injection E as ->. exact B. Qed.
Lemma M_Q : forall st, M st -> Q st. Proof. intros st H. apply H. Qed.
Lemma M_nw : forall st x, M st -> iswhite st x = false -> ~ D x.
Proof. intros st x [_ B] H Dx. rewrite (B x Dx) in H. discriminate. Qed.

(** ** Shrinking contents *)
Lemma weakmode_shr : forall st st' a b, shr st st' -> osub a b -> weakmode st' b = weakmode st a.
Proof.
  intros st st' a b S O. unfold weakmode. rewrite (os_meta _ _ O). destruct (o_meta a) as [m|]; [|reflexivity].
  destruct (heap st m) as [mb|] eqn:H.
  - destruct (sh_some _ _ S _ _ H) as [c [Hc Oc]]. rewrite Hc. apply (os_mode _ _ Oc).
  - rewrite (sh_none _ _ S _ H). reflexivity.
Qed.
Lemma hash_osub : forall a b k v, osub a b -> In (k, v) (o_hash b) -> v <> VNil -> In (k, v) (o_hash a).
Proof.
  intros a b k v O I N. destruct (Forall2_esub_in _ _ _ _ (os_hash _ _ O) I) as [k0 [v0 [I0 [Hk Hv]]]]. cbn in *.
  destruct Hk as [Hk|[o [_ [_ Hk]]]]; [|congruence]. destruct Hv as [Hv|Hv]; [|congruence]. subst. exact I0.
Qed.
Lemma cont_shr : forall st st' a b, shr st st' -> osub a b -> cont st a -> cont st' b.
Proof.
  intros st st' a b S O [A B]. split; [intros m; rewrite (os_meta _ _ O); apply A|]. destruct full.
  - intros x X. apply B. exact (osub_oref _ _ _ O X).
  - destruct B as [B C]. split.
    + rewrite (weakmode_shr _ _ _ _ S O). unfold strongc in *. rewrite (os_kind _ _ O).
      assert (V : okvals a -> okvals b) by (intros V x I; apply V, (Forall2_vsub_in _ _ _ (os_vals _ _ O) I)).
      destruct (o_kind a); try exact (V B).
      destruct (weakmode st a) as [[|] [|]]; [exact I | | |].
      * split; [apply V, B|]. intros k v I N. apply B; [exact (hash_osub _ _ _ _ O I N) | exact N].
      * intros k v I N. apply (B k v); [exact (hash_osub _ _ _ _ O I N) | exact N].
      * split; [apply V, B|]. intros k v I N. apply B; [exact (hash_osub _ _ _ _ O I N) | exact N].
    + intros s Ks I. apply C; [rewrite <- (shr_kind _ _ _ S); exact Ks|].
      destruct I as [I|[[k I]|[v [I N]]]].
      * left. exact (Forall2_vsub_in _ _ _ (os_vals _ _ O) I).
      * right. left. exists k. apply (hash_osub _ _ _ _ O I). discriminate.
      * right. right. exists v. split; [exact (hash_osub _ _ _ _ O I N) | exact N].
Qed.
Lemma okv_vsub : forall v v', vsub v v' -> okv v -> okv v'.
Proof. intros v v' [->| ->] H; [exact H | intros b; discriminate]. Qed.
Lemma root_shr : forall st st' o, shr st st' -> root st' o -> root st o.
Proof.
  intros st st' o S R. destruct (sh_fld _ _ S) as (F1&F2&F3&F4&F5&F6&F7&F8&F9&F10&F11&F12&F13&F14&F15).
  destruct R as [R|R|R|R|R|R|R|R];
    [apply r_main | apply r_cur | apply r_reg | apply r_mt | apply r_fin | apply r_cache | apply r_fixed | apply r_memerr]; congruence.
Qed.
Lemma ephm_shr : forall st st' x, shr st st' -> ephm st x -> ephm st' x.
Proof.
  intros st st' x S E b Hb. destruct (shr_inv _ _ _ _ S Hb) as [a [Ha O]]. destruct (E a Ha) as [V H]. split.
  - intros y I. apply V, (Forall2_vsub_in _ _ _ (os_vals _ _ O) I).
  - intros k v I N. destruct (H k v (hash_osub _ _ _ _ O I N) N) as [A B]. split; [|exact B].
    intros s Es Ks. apply (A s Es). rewrite <- (shr_kind _ _ _ S). exact Ks.
Qed.
Lemma Q_shr : forall st st', Q st -> shr st st' ->
  (forall u th i, uvs st' u = Some (UOpen th i true) -> okv (uv_val st' u)) ->
  (forall o, In o (glists [] st') -> ~ D o) -> (forall o, In o (ephemeron st') -> ephm st o) -> Q st'.
Proof.
  intros st st' H S T L Y. constructor.
  - intros o b Hb N. destruct (shr_inv _ _ _ _ S Hb) as [a [Ha O]]. apply (cont_shr _ _ _ _ S O). exact (d_obj _ H _ _ Ha N).
  - intros o b u Hb N I. destruct (shr_inv _ _ _ _ S Hb) as [a [Ha O]]. apply (okv_vsub _ _ (uv_val_shr _ _ u S)).
    apply (d_upv _ H _ _ _ Ha N). rewrite <- (os_upv _ _ O), <- (os_open _ _ O). exact I.
  - exact T.
  - intros o R. apply (d_root _ H). exact (root_shr _ _ _ S R).
  - intros o I. apply (d_fin _ H). destruct (sh_fld _ _ S) as (_&_&_&_&_&F&_). rewrite <- F. exact I.
  - exact L.
  - intros o I. exact (ephm_shr _ _ _ S (Y o I)).
Qed.
(** The upvalues stay as they are. *)
Definition KQ' (st st' : gst) : Prop := Q st' /\ forall x, ephm st x -> ephm st' x.
Lemma KQ'_KQ : forall st st', KQ' st st' -> same st st' -> KQ st st'.
Proof. intros st st' [A B] C. split; [exact A|]. split; assumption. Qed.
Lemma Q_shr' : forall st st', Q st -> shr st st' -> uvs st' = uvs st -> (forall o, In o (glists [] st') -> ~ D o) ->
  (forall o, In o (ephemeron st') -> ephm st o) -> KQ' st st'.
Proof.
  intros st st' H S U L Y. split; [|intros x; apply ephm_shr, S]. apply (Q_shr _ _ H S); [|exact L|exact Y]. intros u th i X. rewrite U in X.
  apply (okv_vsub _ _ (uv_val_shr _ _ u S)). exact (d_touch _ H _ _ _ X).
Qed.

(** ** Primitive steps *)
Lemma same_modify : forall st o f, ~ D o -> same st (modify st o f).
Proof. intros st o f N x Dx. rewrite heap_modify. destruct (Nat.eqb_spec x o) as [->|]; [contradiction | reflexivity]. Qed.
Lemma glists_modify : forall st o f, glists [] (modify st o f) = glists [] st.
Proof. intros. rewrite modify_rest. reflexivity. Qed.
Lemma Q_modify : forall st o f, Q st -> ~ D o -> (forall a, heap st o = Some a -> osub a (f a)) -> KQ st (modify st o f).
Proof.
  intros st o f H N S. apply KQ'_KQ; [|apply same_modify, N].
  apply (Q_shr' _ _ H (shr_modify _ _ _ S)); [rewrite modify_rest; reflexivity | rewrite glists_modify; apply H|]. rewrite modify_rest. apply (d_eph _ H).
Qed.
Lemma Q_paint : forall st o c, Q st -> ~ D o -> is_whitec c = false -> KQ st (setcol st o c).
Proof. intros st o c H N W. apply Q_modify; [exact H | exact N|]. intros a _. apply osub_col. congruence. Qed.
Lemma Q_lists : forall st g ga w a e, Q st -> (forall o, In o (g ++ ga ++ w ++ a ++ e) -> ~ D o) ->
  (forall o, In o e -> In o (ephemeron st) \/ ephm st o) -> KQ st (set_lists st g ga w a e).
Proof.
  intros st g ga w a e H L Y. apply KQ'_KQ; [|intros x _; reflexivity]. apply (Q_shr' _ _ H (shr_lists _ _ _ _ _ _)); [reflexivity| |].
  - unfold glists. cbn. rewrite app_nil_r. exact L.
  - cbn. intros o I. destruct (Y o I) as [J|J]; [exact (d_eph _ H _ J) | exact J].
Qed.
Lemma glists_app : forall st, glists [] st = gray st ++ grayagain st ++ weak st ++ allweak st ++ ephemeron st.
Proof. intros. unfold glists. rewrite app_nil_r. reflexivity. Qed.
Lemma Q_in : forall st o, Q st -> In o (gray st) \/ In o (grayagain st) \/ In o (weak st) \/ In o (allweak st) \/ In o (ephemeron st) -> ~ D o.
Proof. intros st o H I. apply (d_list _ H). rewrite glists_app, !in_app_iff. exact I. Qed.
Ltac listed H := let x := fresh in let I := fresh in intros x I; rewrite !in_app_iff in I; cbn [In] in I; 
  repeat match goal with I : _ \/ _ |- _ => destruct I as [I|I] | I : _ = _ |- _ => subst end; try assumption; try (apply (Q_in _ _ H); tauto); try contradiction.
Lemma Q_link_gray : forall st o, Q st -> ~ D o -> KQ st (link_gray st o).
Proof. intros st o H N. eapply KQ_trans; [apply (Q_lists st (o :: gray st) (grayagain st) (weak st) (allweak st) (ephemeron st) H); [listed H | tauto]|]. apply Q_paint; [|exact N|reflexivity]. apply Q_lists; [exact H | listed H | tauto]. Qed.
Lemma Q_link_grayagain : forall st o, Q st -> ~ D o -> KQ st (link_grayagain st o).
Proof. intros st o H N. eapply KQ_trans; [apply (Q_lists st (gray st) (o :: grayagain st) (weak st) (allweak st) (ephemeron st) H); [listed H | tauto]|]. apply Q_paint; [|exact N|reflexivity]. apply Q_lists; [exact H | listed H | tauto]. Qed.
Lemma Q_link_weak : forall st o, Q st -> ~ D o -> KQ st (link_weak st o).
Proof. intros st o H N. eapply KQ_trans; [apply (Q_lists st (gray st) (grayagain st) (o :: weak st) (allweak st) (ephemeron st) H); [listed H | tauto]|]. apply Q_paint; [|exact N|reflexivity]. apply Q_lists; [exact H | listed H | tauto]. Qed.
Lemma Q_link_allweak : forall st o, Q st -> ~ D o -> KQ st (link_allweak st o).
Proof. intros st o H N. eapply KQ_trans; [apply (Q_lists st (gray st) (grayagain st) (weak st) (o :: allweak st) (ephemeron st) H); [listed H | tauto]|]. apply Q_paint; [|exact N|reflexivity]. apply Q_lists; [exact H | listed H | tauto]. Qed.
Lemma Q_link_ephemeron : forall st o, Q st -> ~ D o -> ephm st o -> KQ st (link_ephemeron st o).
Proof. intros st o H N Y. assert (X : forall x, In x (o :: ephemeron st) -> In x (ephemeron st) \/ ephm st x) by (intros x [<-|I]; [right; exact Y | left; exact I]). eapply KQ_trans; [apply (Q_lists st (gray st) (grayagain st) (weak st) (allweak st) (o :: ephemeron st) H); [listed H | exact X]|]. apply Q_paint; [|exact N|reflexivity]. apply Q_lists; [exact H | listed H | exact X]. Qed.
Lemma Q_set2black : forall st o, Q st -> ~ D o -> KQ st (set2black st o).
Proof. intros. apply Q_paint; [assumption | assumption | reflexivity]. Qed.

(** ** Marking *)
Lemma Q_mark_meta : forall st m, Q st -> (forall t, m = Some t -> ~ D t) -> KQ st (mark_meta st m).
Proof. intros st [t|] H N; cbn; [|apply KQ_refl, H]. destruct (iswhite st t); [apply Q_link_gray; [exact H | apply N; reflexivity] | apply KQ_refl, H]. Qed.
Lemma Q_mark_obj : forall n st o, Q st -> ~ D o -> KQ st (mark_obj n st o).
Proof.
  induction n as [|n IH]; intros st o H N; cbn [mark_obj]; [apply KQ_refl, H|].
  destruct (heap st o) as [ob|] eqn:Ho; [|apply KQ_refl, H].
  destruct (cont_strong _ _ (d_obj _ H _ _ Ho N)) as [Mt [S _]]. unfold strongc in S.
  assert (U : okvals ob -> KQ st (let st1 := set2black (mark_meta st (o_meta ob)) o in
          match o_vals ob with VObj u :: _ => if iswhite st1 u then mark_obj n st1 u else st1 | _ => st1 end)).
  { intros V. cbn. assert (K : KQ st (set2black (mark_meta st (o_meta ob)) o)).
    { eapply KQ_trans; [apply Q_mark_meta; [exact H | exact Mt]|]. apply Q_set2black; [apply Q_mark_meta; [exact H | exact Mt] | exact N]. }
    destruct (o_vals ob) as [|[| |u] l] eqn:Vs; try exact K. destruct (iswhite _ u); [|exact K].
    eapply KQ_trans; [exact K|]. apply IH; [apply K|]. apply V. rewrite Vs. left. reflexivity. }
  destruct (o_kind ob); try (apply Q_link_gray; assumption); [apply Q_set2black; assumption | exact (U S) | exact (U S)].
Qed.
Lemma Q_mark : forall st o, Q st -> ~ D o -> KQ st (mark st o).
Proof. intros st o H N. unfold mark. destruct (iswhite st o); [apply Q_mark_obj; assumption | apply KQ_refl, H]. Qed.
Lemma Q_mark_val : forall st v, Q st -> okv v -> KQ st (mark_val st v).
Proof. intros st [| |o] H N; cbn; try (apply KQ_refl, H). apply Q_mark; [exact H | apply N; reflexivity]. Qed.
Lemma Q_mark_opt : forall st v, Q st -> (forall o, v = Some o -> ~ D o) -> KQ st (mark_opt st v).
Proof. intros st [o|] H N; cbn; [|apply KQ_refl, H]. apply Q_mark; [exact H | apply N; reflexivity]. Qed.
Lemma Q_mark_key : forall st k, Q st -> okk k -> KQ st (mark_key st k).
Proof. intros st [|o|] H N; cbn; try (apply KQ_refl, H). apply Q_mark; [exact H | apply N; reflexivity]. Qed.
Lemma Q_fold : forall (A : Type) (f : gst -> A -> gst) (P : A -> Prop), (forall st a, Q st -> P a -> KQ st (f st a)) ->
  forall l st, Q st -> (forall a, In a l -> P a) -> KQ st (fold_left f l st).
Proof.
  intros A f P F l. induction l as [|a l IH]; intros st H N; cbn; [apply KQ_refl, H|].
  eapply KQ_trans; [apply F; [exact H | apply N; left; reflexivity]|]. apply IH; [apply F; [exact H | apply N; left; reflexivity]|].
  intros x I. apply N. right. exact I.
Qed.
Lemma Q_mark_vals : forall st l, Q st -> (forall b, In (VObj b) l -> ~ D b) -> KQ st (mark_vals st l).
Proof. intros st l H N. apply (Q_fold _ mark_val okv); [intros; apply Q_mark_val; assumption | exact H|]. intros v I b ->. apply N, I. Qed.
Lemma Q_iscleared : forall st o, Q st -> (forall s, o = Some s -> kind_of st s = Some KStr -> ~ D s) -> KQ st (fst (iscleared st o)).
Proof.
  intros st [o|] H N; cbn; [|apply KQ_refl, H]. destruct (kind_of st o) as [[]|] eqn:K; cbn; try (apply KQ_refl, H).
  apply Q_mark; [exact H | apply N; [reflexivity | exact K]].
Qed.

(** ** Upvalues *)
Lemma uvs_val : forall st u th i t, uvs st u = Some (UOpen th i t) -> 
  uv_val (set_uvs st (fun x => if Nat.eqb x u then Some (UOpen th i true) else uvs st x) (nextuv st)) u = uv_val st u.
Proof. intros st u th i t E. unfold uv_val. cbn. rewrite Nat.eqb_refl, E. reflexivity. Qed.
Lemma uv_val_touch : forall st u th i t t', uvs st u = Some (UOpen th i t) -> forall x,
  uv_val (set_uvs st (fun x => if Nat.eqb x u then Some (UOpen th i t') else uvs st x) (nextuv st)) x = uv_val st x.
Proof. intros st u th i t t' E x. unfold uv_val. cbn. destruct (Nat.eqb_spec x u) as [->|]; [rewrite E; reflexivity | reflexivity]. Qed.
Lemma shr_touch' : forall st u th i t t', uvs st u = Some (UOpen th i t) ->
  shr st (set_uvs st (fun x => if Nat.eqb x u then Some (UOpen th i t') else uvs st x) (nextuv st)).
Proof.
  intros st u th i t t' E. constructor; cbn.
  - auto.
  - intros o a H. exists a. split; [exact H | apply osub_refl].
  - intros x. destruct (Nat.eqb_spec x u) as [->|]; [rewrite E; cbn; exists t'; reflexivity | apply usub_refl].
  - repeat split.
Qed.
Lemma Q_touch : forall st u th i t t', Q st -> uvs st u = Some (UOpen th i t) -> okv (uv_val st u) ->
  KQ st (set_uvs st (fun x => if Nat.eqb x u then Some (UOpen th i t') else uvs st x) (nextuv st)).
Proof.
  intros st u th i t t' H E N. apply KQ'_KQ; [|intros x _; reflexivity]. split; [|intros x; apply ephm_shr, (shr_touch' _ _ _ _ _ t' E)].
  apply (Q_shr _ _ H (shr_touch' _ _ _ _ _ t' E)); [|exact (d_list _ H)|exact (d_eph _ H)].
  intros x th' i' X. rewrite (uv_val_touch _ _ _ _ _ _ E). cbn in X. destruct (Nat.eqb_spec x u) as [->|]; [exact N|].
  exact (d_touch _ H _ _ _ X).
Qed.
Lemma Q_trav_upv : forall st u, Q st -> okv (uv_val st u) -> KQ st (trav_upv st u).
Proof.
  intros st u H N. unfold trav_upv. destruct (uvs st u) as [[th i t|v]|] eqn:E; [|apply Q_mark_val; [exact H|]|apply KQ_refl, H].
  - destruct (is_atomic (gcs st)); [apply Q_mark_val; assumption | apply (Q_touch _ _ _ _ t); assumption].
  - unfold uv_val in N. rewrite E in N. exact N.
Qed.
(** Marking changes neither upvalues nor slots. *)
Definition cu (st st' : gst) : Prop := uvs st' = uvs st /\ forall x, option_map o_vals (heap st' x) = option_map o_vals (heap st x).
Lemma cu_refl : forall st, cu st st. Proof. split; reflexivity. Qed.
Lemma cu_trans : forall a b c, cu a b -> cu b c -> cu a c.
Proof. intros a b c [A B] [C E]. split; [congruence|]. intros x. rewrite E. apply B. Qed.
Lemma cu_setcol : forall st o c, cu st (setcol st o c).
Proof.
  intros. unfold setcol. split; [rewrite modify_rest; reflexivity|]. intros x. rewrite heap_modify.
  destruct (Nat.eqb_spec x o) as [->|]; [destruct (heap st o); reflexivity | reflexivity].
Qed.
Lemma cu_link_gray : forall st o, cu st (link_gray st o).
Proof. intros. eapply cu_trans; [|apply cu_setcol]. split; reflexivity. Qed.
Lemma cu_mark_obj : forall n st o, cu st (mark_obj n st o).
Proof.
  induction n as [|n IH]; intros st o; cbn [mark_obj]; [apply cu_refl|]. destruct (heap st o) as [ob|]; [|apply cu_refl].
  assert (P : cu st (set2black (mark_meta st (o_meta ob)) o)).
  { eapply cu_trans; [|apply cu_setcol]. destruct (o_meta ob) as [m|]; cbn; [destruct (iswhite st m); [apply cu_link_gray|]|]; apply cu_refl. }
  assert (U : cu st (let st1 := set2black (mark_meta st (o_meta ob)) o in
          match o_vals ob with VObj u :: _ => if iswhite st1 u then mark_obj n st1 u else st1 | _ => st1 end)).
  { cbn. destruct (o_vals ob) as [|[| |u] l]; try exact P. destruct (iswhite _ u); [|exact P]. eapply cu_trans; [exact P | apply IH]. }
  destruct (o_kind ob); try apply cu_link_gray; [apply cu_setcol | exact U | exact U].
Qed.
Lemma cu_mark_val : forall st v, cu st (mark_val st v).
Proof. intros st [| |o]; cbn; try apply cu_refl. unfold mark. destruct (iswhite st o); [apply cu_mark_obj | apply cu_refl]. Qed.
Lemma cu_uv_val : forall st st' u, cu st st' -> uv_val st' u = uv_val st u.
Proof.
  intros st st' u [A B]. unfold uv_val. rewrite A. destruct (uvs st u) as [[th i t|v]|]; [|reflexivity|reflexivity].
  specialize (B th). destruct (heap st' th), (heap st th); cbn in B; try discriminate; [injection B as ->|]; reflexivity.
Qed.
Lemma Q_remark_upv : forall st u, Q st -> KQ st (remark_upv st u).
Proof.
  intros st u H. unfold remark_upv. destruct (uvs st u) as [[th i [|]|v]|] eqn:E; try (apply KQ_refl, H).
  assert (N := d_touch _ H _ _ _ E). assert (K := Q_mark_val _ _ H N). eapply KQ_trans; [exact K|].
  destruct K as [K _]. assert (C := cu_mark_val st (uv_val st u)). apply (Q_touch _ _ _ _ true); [exact K| |].
  - rewrite (proj1 C). exact E.
  - rewrite (cu_uv_val _ _ _ C). exact N.
Qed.
Lemma Q_twups : forall st l, Q st -> KQ st (set_twups st l).
Proof. intros st l H. apply KQ'_KQ; [|intros x _; reflexivity]. apply (Q_shr' _ _ H); [|reflexivity | exact (d_list _ H) | exact (d_eph _ H)].
  constructor; cbn; [auto | intros o a E; exists a; split; [exact E | apply osub_refl] | intros; apply usub_refl | repeat split]. Qed.
Lemma Q_remark_loop : forall l st, Q st -> KQ st (fst (remark_loop st l)).
Proof.
  induction l as [|t l IH]; intros st H; cbn; [apply KQ_refl, H|]. destruct (heap st t) as [ob|]; [|apply IH, H].
  destruct (_ && _).
  - destruct (remark_loop st l) as [s r] eqn:E. specialize (IH st H). rewrite E in IH. exact IH.
  - assert (K : KQ st (fold_left remark_upv (o_open ob) st)).
    { apply (Q_fold _ remark_upv (fun _ => True)); [intros; apply Q_remark_upv; assumption | exact H | auto]. }
    eapply KQ_trans; [exact K|]. apply IH, K.
Qed.
Lemma Q_remarkupvals : forall st, Q st -> KQ st (remarkupvals st).
Proof.
  intros st H. unfold remarkupvals. destruct (remark_loop st (twups st)) as [s r] eqn:E.
  assert (K := Q_remark_loop (twups st) st H). rewrite E in K. eapply KQ_trans; [exact K|]. apply Q_twups, K.
Qed.

(** ** Traversing *)
Lemma clean_esub' : forall h, Forall2 esub h (clean h).
Proof.
  induction h as [|[k v] h IH]; cbn; constructor; [|exact IH]. destruct k as [n|o|o], v; split; cbn; try (left; reflexivity).
  right. exists o. repeat split.
Qed.
Lemma osub_hash' : forall a h, Forall2 esub (o_hash a) h -> osub a (with_hash a h).
Proof. intros [] h E. constructor; cbn in *; try reflexivity; try exact E; [apply Forall2_refl; intros; left; reflexivity | left; reflexivity]. Qed.
Lemma Q_sethash : forall st o h, Q st -> ~ D o -> (forall a, heap st o = Some a -> Forall2 esub (o_hash a) h) -> KQ st (sethash st o h).
Proof. intros st o h H N E. apply Q_modify; [exact H | exact N|]. intros a Ha. apply osub_hash', E, Ha. Qed.
(** Marking leaves the hash parts alone. *)
Definition hs (st st' : gst) : Prop := forall x, option_map o_hash (heap st' x) = option_map o_hash (heap st x).
Lemma hs_refl : forall st, hs st st. Proof. intros st x. reflexivity. Qed.
Lemma hs_trans : forall a b c, hs a b -> hs b c -> hs a c.
Proof. intros a b c A B x. rewrite B. apply A. Qed.
Lemma hs_setcol : forall st o c, hs st (setcol st o c).
Proof. intros st o c x. unfold setcol. rewrite heap_modify. destruct (Nat.eqb_spec x o) as [->|]; [destruct (heap st o); reflexivity | reflexivity]. Qed.
Lemma hs_link_gray : forall st o, hs st (link_gray st o).
Proof. intros. eapply hs_trans; [|apply hs_setcol]. intros x. reflexivity. Qed.
Lemma hs_mark_meta : forall st m, hs st (mark_meta st m).
Proof. intros st [m|]; cbn; [destruct (iswhite st m); [apply hs_link_gray|]|]; apply hs_refl. Qed.
Lemma hs_mark_obj : forall n st o, hs st (mark_obj n st o).
Proof.
  induction n as [|n IH]; intros st o; cbn [mark_obj]; [apply hs_refl|]. destruct (heap st o) as [ob|]; [|apply hs_refl].
  assert (P : hs st (set2black (mark_meta st (o_meta ob)) o)) by (eapply hs_trans; [apply hs_mark_meta | apply hs_setcol]).
  assert (U : hs st (let st1 := set2black (mark_meta st (o_meta ob)) o in
          match o_vals ob with VObj u :: _ => if iswhite st1 u then mark_obj n st1 u else st1 | _ => st1 end)).
  { cbn. destruct (o_vals ob) as [|[| |u] l]; try exact P. destruct (iswhite _ u); [|exact P]. eapply hs_trans; [exact P | apply IH]. }
  destruct (o_kind ob); try apply hs_link_gray; [apply hs_setcol | exact U | exact U].
Qed.
Lemma hs_mark : forall st o, hs st (mark st o).
Proof. intros. unfold mark. destruct (iswhite st o); [apply hs_mark_obj | apply hs_refl]. Qed.
Lemma hs_mark_val : forall st v, hs st (mark_val st v).
Proof. intros st [| |o]; cbn; try apply hs_refl. apply hs_mark. Qed.
Lemma hs_mark_key : forall st v, hs st (mark_key st v).
Proof. intros st [|o|]; cbn; try apply hs_refl. apply hs_mark. Qed.
Lemma hs_fold : forall (A : Type) (f : gst -> A -> gst), (forall st a, hs st (f st a)) -> forall l st, hs st (fold_left f l st).
Proof. intros A f F l. induction l as [|a l IH]; intros st; cbn; [apply hs_refl|]. eapply hs_trans; [apply F | apply IH]. Qed.
Lemma hs_iscleared : forall st o, hs st (fst (iscleared st o)).
Proof. intros st [o|]; cbn; [|apply hs_refl]. destruct (kind_of st o) as [[]|]; cbn; try apply hs_refl. apply hs_mark. Qed.
Lemma hs_clean : forall st st' o ob a, hs st st' -> option_map o_hash (heap st o) = Some (o_hash ob) -> heap st' o = Some a -> Forall2 esub (o_hash a) (clean (o_hash ob)).
Proof. intros st st' o ob a S H A. specialize (S o). rewrite H, A in S. cbn in S. injection S as ->. apply clean_esub'. Qed.

(** Kinds do not change. *)
Definition kn (st st' : gst) : Prop := forall x, kind_of st' x = kind_of st x.
Lemma kn_setcol : forall st o c, kn st (setcol st o c).
Proof. intros st o c x. unfold kind_of, setcol. rewrite heap_modify. destruct (Nat.eqb_spec x o) as [->|]; [destruct (heap st o); reflexivity | reflexivity]. Qed.
Lemma kn_refl : forall st, kn st st. Proof. intros st x. reflexivity. Qed.
Lemma kn_trans : forall a b c, kn a b -> kn b c -> kn a c. Proof. intros a b c A B x. rewrite B. apply A. Qed.
Lemma kn_link_gray : forall st o, kn st (link_gray st o).
Proof. intros. eapply kn_trans; [|apply kn_setcol]. intros x. reflexivity. Qed.
Lemma kn_mark_obj : forall n st o, kn st (mark_obj n st o).
Proof.
  induction n as [|n IH]; intros st o; cbn [mark_obj]; [apply kn_refl|]. destruct (heap st o) as [ob|]; [|apply kn_refl].
  assert (P : kn st (set2black (mark_meta st (o_meta ob)) o)).
  { eapply kn_trans; [|apply kn_setcol]. destruct (o_meta ob) as [m|]; cbn; [destruct (iswhite st m); [apply kn_link_gray|]|]; apply kn_refl. }
  assert (U : kn st (let st1 := set2black (mark_meta st (o_meta ob)) o in
          match o_vals ob with VObj u :: _ => if iswhite st1 u then mark_obj n st1 u else st1 | _ => st1 end)).
  { cbn. destruct (o_vals ob) as [|[| |u] l]; try exact P. destruct (iswhite _ u); [|exact P]. eapply kn_trans; [exact P | apply IH]. }
  destruct (o_kind ob); try apply kn_link_gray; [apply kn_setcol | exact U | exact U].
Qed.
Lemma kn_mark : forall st o, kn st (mark st o).
Proof. intros. unfold mark. destruct (iswhite st o); [apply kn_mark_obj | apply kn_refl]. Qed.
Lemma kn_mark_val : forall st v, kn st (mark_val st v).
Proof. intros st [| |o]; cbn; try apply kn_refl. apply kn_mark. Qed.
Lemma kn_mark_key : forall st v, kn st (mark_key st v).
Proof. intros st [|o|]; cbn; try apply kn_refl. apply kn_mark. Qed.
Lemma kn_iscleared : forall st o, kn st (fst (iscleared st o)).
Proof. intros st [o|]; cbn; [|apply kn_refl]. destruct (kind_of st o) as [[]|]; cbn; try apply kn_refl. apply kn_mark. Qed.
Lemma Q_isclearedk : forall st k, Q st -> strk st k -> KQ st (fst (iscleared st (kobj k))).
Proof. intros st k H N. apply Q_iscleared; [exact H|]. intros s E. apply N. destruct k; cbn in E; congruence. Qed.
Lemma Q_isclearedv : forall st v, Q st -> strv st v -> KQ st (fst (iscleared st (vobj v))).
Proof. intros st v H N. apply Q_iscleared; [exact H|]. intros s E. apply N. destruct v; cbn in E; congruence. Qed.

Lemma Q_weakvalue_loop : forall h st c, Q st -> (forall k v, In (k, v) h -> v <> VNil -> okk k /\ strv st v) ->
  KQ st (fst (weakvalue_loop st h c)) /\ hs st (fst (weakvalue_loop st h c)).
Proof.
  induction h as [|[k v] h IH]; intros st c H N; cbn; [split; [apply KQ_refl, H | apply hs_refl]|].
  assert (N' : forall st', kn st st' -> forall k v, In (k, v) h -> v <> VNil -> okk k /\ strv st' v).
  { intros st' K k' v' I X. destruct (N k' v' (or_intror I) X) as [A B]. split; [exact A|]. intros s E Ks. apply (B s E). rewrite <- (K s). exact Ks. }
  destruct (isnil v) eqn:Nv; [apply IH; [exact H | apply N', kn_refl]|].
  destruct (N k v (or_introl eq_refl)) as [A B]; [destruct v; discriminate|].
  assert (K1 := Q_mark_key _ _ H A). destruct c.
  - destruct (IH (mark_key st k) true (proj1 K1) (N' _ (kn_mark_key _ _))) as [K2 S2].
    split; [eapply KQ_trans; eassumption | eapply hs_trans; [apply hs_mark_key | exact S2]].
  - destruct (iscleared (mark_key st k) (vobj v)) as [s c] eqn:E.
    assert (K2 : KQ (mark_key st k) s).
    { replace s with (fst (iscleared (mark_key st k) (vobj v))) by (rewrite E; reflexivity). apply Q_isclearedv; [apply K1|].
      intros y Ey Ky. apply (B y Ey). rewrite <- (kn_mark_key st k y). exact Ky. }
    assert (S2 : hs (mark_key st k) s) by (replace s with (fst (iscleared (mark_key st k) (vobj v))) by (rewrite E; reflexivity); apply hs_iscleared).
    assert (T2 : kn (mark_key st k) s) by (replace s with (fst (iscleared (mark_key st k) (vobj v))) by (rewrite E; reflexivity); apply kn_iscleared).
    destruct (IH s c (proj1 K2) (N' _ (kn_trans _ _ _ (kn_mark_key _ _) T2))) as [K3 S3].
    split; [eapply KQ_trans; [exact K1|]; eapply KQ_trans; eassumption | eapply hs_trans; [apply hs_mark_key|]; eapply hs_trans; eassumption].
Qed.
Lemma Q_traverseweakvalue : forall st o ob, Q st -> ~ D o -> option_map o_hash (heap st o) = Some (o_hash ob) ->
  (forall k v, In (k, v) (o_hash ob) -> v <> VNil -> okk k /\ strv st v) -> KQ st (traverseweakvalue st o ob).
Proof.
  intros st o ob H N Ho E. unfold traverseweakvalue.
  destruct (Q_weakvalue_loop (o_hash ob) st (negb (Nat.eqb (length (o_vals ob)) 0)) H E) as [K1 S1].
  destruct (weakvalue_loop _ _ _) as [s c]. cbn in K1, S1. 
  assert (K2 : KQ s (sethash s o (clean (o_hash ob)))) by (apply Q_sethash; [apply K1 | exact N | intros a Ha; exact (hs_clean _ _ _ _ _ S1 Ho Ha)]).
  eapply KQ_trans; [exact K1|]. eapply KQ_trans; [exact K2|]. destruct (_ && _); [apply Q_link_weak | apply Q_link_grayagain]; try exact N; apply K2.
Qed.
Lemma Q_eph_arr : forall l st m, Q st -> (forall b, In (VObj b) l -> ~ D b) -> KQ st (fst (eph_arr st l m)) /\ hs st (fst (eph_arr st l m)) /\ kn st (fst (eph_arr st l m)).
Proof.
  induction l as [|v l IH]; intros st m H N; cbn; [split; [apply KQ_refl, H | split; [apply hs_refl | apply kn_refl]]|].
  assert (N' : forall b, In (VObj b) l -> ~ D b) by (intros b I; apply N; right; exact I).
  destruct v as [| |b]; try (apply IH; assumption). destruct (iswhite st b); [|apply IH; assumption].
  assert (K := Q_mark st b H (N b (or_introl eq_refl))). destruct (IH (mark st b) true (proj1 K) N') as [K2 [S2 T2]].
  split; [eapply KQ_trans; eassumption|]. split; [eapply hs_trans; [apply hs_mark | exact S2] | eapply kn_trans; [apply kn_mark | exact T2]].
Qed.
Lemma iscleared_white : forall st o, snd (iscleared st o) = false -> (exists x, o = Some x /\ (kind_of st x = Some KStr \/ iswhite st x = false)) \/ o = None.
Proof.
  intros st [o|]; cbn; [|right; reflexivity]. intros E. left. exists o. split; [reflexivity|].
  destruct (kind_of st o) as [[]|]; cbn in E; auto.
Qed.
Lemma Q_eph_hash : forall h st a b c, M st -> (forall k v, In (k, v) h -> v <> VNil -> strk st k /\ (okk k -> okv v)) ->
  KQ st (fst (fst (fst (eph_hash st h a b c)))) /\ hs st (fst (fst (fst (eph_hash st h a b c)))).
Proof.
  induction h as [|[k v] h IH]; intros st a b c H N; cbn; [split; [apply KQ_refl, H | apply hs_refl]|].
  assert (N' : forall st', kn st st' -> forall k v, In (k, v) h -> v <> VNil -> strk st' k /\ (okk k -> okv v)).
  { intros st' K k' v' I X. destruct (N k' v' (or_intror I) X) as [A B]. split; [|exact B]. intros s E Ks. apply (A s E). rewrite <- (K s). exact Ks. }
  destruct (isnil v) eqn:Nv; [apply IH; [exact H | apply N', kn_refl]|].
  destruct (N k v (or_introl eq_refl)) as [A B]; [destruct v; discriminate|].
  assert (K1 := Q_isclearedk st k (M_Q _ H) A). assert (S1 := hs_iscleared st (kobj k)). assert (T1 := kn_iscleared st (kobj k)).
  assert (C1 := iscleared_white st (kobj k)).
  destruct (iscleared st (kobj k)) as [s cl]. cbn in K1, S1, T1, C1. assert (M1 := M_KQ _ _ H K1).
  destruct cl.
  - destruct (IH s a true (c || valiswhite s v) M1 (N' _ T1)) as [K2 S2]. split; [eapply KQ_trans; eassumption | eapply hs_trans; eassumption].
  - destruct (valiswhite s v).
    + assert (Ok : okk k).
      { intros x ->. destruct (C1 eq_refl) as [[y [E [Y|Y]]]|E]; [injection E as <-; apply (A x eq_refl Y) | injection E as <-; exact (M_nw _ _ H Y) | discriminate]. }
      assert (K2 := Q_mark_val s v (proj1 K1) (B Ok)). assert (M2 := M_KQ _ _ M1 K2).
      destruct (IH (mark_val s v) true b c M2 (N' _ (kn_trans _ _ _ T1 (kn_mark_val s v)))) as [K3 S3].
      split; [eapply KQ_trans; [exact K1|]; eapply KQ_trans; eassumption | eapply hs_trans; [exact S1|]; eapply hs_trans; [apply hs_mark_val | exact S3]].
    + destruct (IH s a b c M1 (N' _ T1)) as [K2 S2]. split; [eapply KQ_trans; eassumption | eapply hs_trans; eassumption].
Qed.
Lemma Q_traverseephemeron : forall st o ob, M st -> ~ D o -> option_map o_hash (heap st o) = Some (o_hash ob) -> okvals ob ->
  (forall k v, In (k, v) (o_hash ob) -> v <> VNil -> strk st k /\ (okk k -> okv v)) -> ephm st o -> KQ st (fst (traverseephemeron st o ob)).
Proof.
  intros st o ob H N Ho V E Y. unfold traverseephemeron.
  destruct (Q_eph_arr (o_vals ob) st false (M_Q _ H) V) as [K1 [S1 T1]]. destruct (eph_arr st (o_vals ob) false) as [s1 m1]. cbn in K1, S1, T1.
  assert (M1 := M_KQ _ _ H K1).
  destruct (Q_eph_hash (o_hash ob) s1 m1 false false M1) as [K2 S2].
  { intros k v I X. destruct (E k v I X) as [A B]. split; [|exact B]. intros s Es Ks. apply (A s Es). rewrite <- (T1 s). exact Ks. }
  destruct (eph_hash s1 (o_hash ob) m1 false false) as [[[s2 mk] hc] ww]. cbn in K2, S2 |- *.
  assert (K3 : KQ s2 (sethash s2 o (clean (o_hash ob)))).
  { apply Q_sethash; [apply K2 | exact N | intros a Ha; exact (hs_clean _ _ _ _ _ (hs_trans _ _ _ S1 S2) Ho Ha)]. }
  assert (Y3 : ephm (sethash s2 o (clean (o_hash ob))) o) by (apply K3, K2, K1, Y).
  eapply KQ_trans; [exact K1|]. eapply KQ_trans; [exact K2|]. eapply KQ_trans; [exact K3|]. destruct K3 as [K3 _].
  destruct (is_propagate _); [apply Q_link_grayagain; assumption|]. destruct ww; [apply Q_link_ephemeron; assumption|].
  destruct hc; [apply Q_link_allweak; assumption | apply KQ_refl, K3].
Qed.
Lemma hs_mark_vals : forall l st, hs st (mark_vals st l).
Proof. intros. apply hs_fold. intros. apply hs_mark_val. Qed.
Lemma hs_mark_entries : forall l st, hs st (fold_left mark_entry l st).
Proof. apply hs_fold. intros st [k v]. unfold mark_entry. cbn. destruct (isnil v); [apply hs_refl|]. eapply hs_trans; [apply hs_mark_key | apply hs_mark_val]. Qed.
Lemma Q_traversestrongtable : forall st o ob, Q st -> ~ D o -> option_map o_hash (heap st o) = Some (o_hash ob) -> okvals ob ->
  (forall k v, In (k, v) (o_hash ob) -> v <> VNil -> okk k /\ okv v) -> KQ st (traversestrongtable st o ob).
Proof.
  intros st o ob H N Ho V E. unfold traversestrongtable. assert (K1 := Q_mark_vals st _ H V).
  assert (K2 : KQ (mark_vals st (o_vals ob)) (fold_left mark_entry (o_hash ob) (mark_vals st (o_vals ob)))).
  { apply (Q_fold _ mark_entry (fun e => snd e <> VNil -> okk (fst e) /\ okv (snd e))); [|apply K1|intros [k v] I; apply E, I].
    intros s [k v] Hs P. unfold mark_entry. cbn in *. destruct (isnil v) eqn:Nv; [apply KQ_refl, Hs|].
    destruct P as [A B]; [destruct v; discriminate|]. assert (K := Q_mark_key s k Hs A). eapply KQ_trans; [exact K|]. apply Q_mark_val; [apply K | exact B]. }
  eapply KQ_trans; [exact K1|]. eapply KQ_trans; [exact K2|]. apply Q_sethash; [apply K2 | exact N|].
  intros a Ha. apply (hs_clean _ _ _ _ _ (hs_trans _ _ _ (hs_mark_vals _ _) (hs_mark_entries _ _)) Ho Ha).
Qed.
Lemma kn_mark_meta : forall st m, kn st (mark_meta st m).
Proof. intros st [m|]; cbn; [destruct (iswhite st m); [apply kn_link_gray|]|]; apply kn_refl. Qed.
Lemma Q_traversetable : forall st o ob, M st -> ~ D o -> heap st o = Some ob -> o_kind ob = KTable -> cont st ob -> KQ st (traversetable st o ob).
Proof.
  intros st o ob H N Ho Kt C. destruct (cont_strong _ _ C) as [Mt [S X]]. unfold strongc in S. rewrite Kt in S. unfold traversetable.
  assert (K := Q_mark_meta st (o_meta ob) (M_Q _ H) Mt). assert (M1 := M_KQ _ _ H K). eapply KQ_trans; [exact K|].
  assert (H1 : option_map o_hash (heap (mark_meta st (o_meta ob)) o) = Some (o_hash ob)) by (rewrite (hs_mark_meta st (o_meta ob) o), Ho; reflexivity).
  assert (T := kn_mark_meta st (o_meta ob)).
  destruct (weakmode st ob) as [[|] [|]].
  - apply Q_link_allweak; [apply K | exact N].
  - destruct S as [V E]. apply Q_traverseephemeron; [exact M1 | exact N | exact H1 | exact V| |].
    + intros k v I Nv. split; [|apply E; assumption].
      intros s -> Ks. apply (X s); [rewrite <- (T s); exact Ks|]. right. right. exists v. split; assumption.
    + apply K. intros a Ha. replace a with ob by congruence. split; [exact V|]. intros k v I Nv. split; [|apply E; assumption].
      intros s -> Ks. apply (X s); [exact Ks|]. right. right. exists v. split; assumption.
  - apply Q_traverseweakvalue; [apply K | exact N | exact H1|]. intros k v I Nv. split; [apply (S k v); assumption|].
    intros s -> Ks. apply (X s); [rewrite <- (T s); exact Ks|]. right. left. exists k. exact I.
  - destruct S as [V E]. apply Q_traversestrongtable; [apply K | exact N | exact H1 | exact V | exact E].
Qed.
Lemma Q_uvfold : forall l st, Q st -> (forall u, In u l -> okv (uv_val st u)) -> KQ st (fold_left (fun s u => mark_val s (uv_val s u)) l st).
Proof.
  induction l as [|u l IH]; intros st H N; cbn; [apply KQ_refl, H|].
  assert (K := Q_mark_val st _ H (N u (or_introl eq_refl))). eapply KQ_trans; [exact K|]. apply IH; [apply K|].
  intros x I. rewrite (cu_uv_val _ _ _ (cu_mark_val st (uv_val st u))). apply N. right. exact I.
Qed.
Lemma uv_trav : forall st u x, uv_val (trav_upv st u) x = uv_val st x.
Proof.
  intros st u x. unfold trav_upv. destruct (uvs st u) as [[th i t|v]|] eqn:E; [|apply cu_uv_val, cu_mark_val|reflexivity].
  destruct (is_atomic _); [apply cu_uv_val, cu_mark_val | apply (uv_val_touch _ _ _ _ t), E].
Qed.
Lemma Q_travfold : forall l st, Q st -> (forall u, In u l -> okv (uv_val st u)) -> KQ st (fold_left trav_upv l st).
Proof.
  induction l as [|u l IH]; intros st H N; cbn; [apply KQ_refl, H|].
  assert (K := Q_trav_upv st u H (N u (or_introl eq_refl))). eapply KQ_trans; [exact K|]. apply IH; [apply K|].
  intros x I. rewrite uv_trav. apply N. right. exact I.
Qed.
Lemma cu_fold : forall (A : Type) (f : gst -> A -> gst), (forall st a, cu st (f st a)) -> forall l st, cu st (fold_left f l st).
Proof. intros A f F l. induction l as [|a l IH]; intros st; cbn; [apply cu_refl|]. eapply cu_trans; [apply F | apply IH]. Qed.
Lemma cu_mark_vals : forall l st, cu st (mark_vals st l).
Proof. intros. apply cu_fold, cu_mark_val. Qed.
Lemma firstn_In' : forall (A : Type) (x : A) n l, In x (firstn n l) -> In x l.
Proof. intros A x n. induction n as [|n IH]; intros [|a l]; cbn; [tauto | tauto | tauto|]. intros [E|I]; [left; exact E | right; apply IH, I]. Qed.
Lemma thread_sub : forall l n, Forall2 vsub l (firstn n l ++ nils (length l - n)).
Proof.
  induction l as [|v l IH]; intros n; cbn; [destruct n; constructor|]. destruct n as [|n]; cbn.
  - constructor; [right; reflexivity|]. specialize (IH 0). cbn in IH. rewrite Nat.sub_0_r in IH. exact IH.
  - constructor; [left; reflexivity | apply IH].
Qed.
Lemma Q_traversethread : forall st o ob, Q st -> ~ D o -> okvals ob -> (forall u, In u (o_open ob) -> okv (uv_val st u)) -> KQ st (traversethread st o ob).
Proof.
  intros st o ob H N V U. unfold traversethread.
  set (s0 := if is_propagate (gcs st) then link_grayagain st o else st).
  assert (K0 : KQ st s0) by (unfold s0; destruct (is_propagate _); [apply Q_link_grayagain; assumption | apply KQ_refl, H]).
  assert (C0 : cu st s0) by (unfold s0; destruct (is_propagate _); [eapply cu_trans; [|apply cu_setcol]; split; reflexivity | apply cu_refl]).
  assert (K1 : KQ s0 (mark_vals s0 (firstn (o_top ob) (o_vals ob)))) by (apply Q_mark_vals; [apply K0 | intros b I; apply V, (firstn_In' _ _ _ _ I)]).
  set (s1 := mark_vals s0 (firstn (o_top ob) (o_vals ob))) in *.
  assert (K2 : KQ s1 (fold_left (fun s u => mark_val s (uv_val s u)) (o_open ob) s1)).
  { apply Q_uvfold; [apply K1|]. intros u I. unfold s1. rewrite (cu_uv_val _ _ _ (cu_mark_vals _ _)), (cu_uv_val _ _ _ C0). apply U, I. }
  set (s2 := fold_left (fun s u => mark_val s (uv_val s u)) (o_open ob) s1) in *.
  eapply KQ_trans; [exact K0|]. eapply KQ_trans; [exact K1|]. eapply KQ_trans; [exact K2|]. destruct K2 as [K2 _].
  destruct (is_atomic _); [|apply KQ_refl, K2].
  set (s3 := modify s2 o (fun b => with_vals b (firstn (o_top b) (o_vals b) ++ nils (length (o_vals b) - o_top b)))).
  assert (K3 : KQ s2 s3).
  { apply Q_modify; [exact K2 | exact N|]. intros a _. destruct a. constructor; cbn; try reflexivity; [apply thread_sub | apply Forall2_refl; intros; split; left; reflexivity | left; reflexivity]. }
  cbv zeta. destruct (existsb _ _); [exact K3|]. destruct (o_open ob); [exact K3|]. eapply KQ_trans; [exact K3|]. apply Q_twups, K3.
Qed.
Lemma Q_propagatemark : forall st, M st -> KQ st (propagatemark st).
Proof.
  intros st H. unfold propagatemark. destruct (gray st) as [|o g] eqn:G; [apply KQ_refl, H|].
  assert (N : ~ D o) by (apply (Q_in _ o (M_Q _ H)); left; rewrite G; left; reflexivity).
  assert (K0 : KQ st (set2black (set_gray st g) o)).
  { assert (X : KQ st (set_gray st g)).
    { apply Q_lists; [apply H| |tauto]. intros x I. apply (Q_in _ x (M_Q _ H)). rewrite G. rewrite !in_app_iff in I. cbn. tauto. }
    eapply KQ_trans; [exact X|]. apply Q_set2black; [apply X | exact N]. }
  assert (M0 := M_KQ _ _ H K0). set (s := set2black (set_gray st g) o) in *. cbv zeta.
  destruct (heap s o) as [ob|] eqn:Ho; [|exact K0].
  assert (C := d_obj _ (M_Q _ M0) _ _ Ho N). assert (U := fun u => d_upv _ (M_Q _ M0) _ _ u Ho N).
  destruct (cont_strong _ _ C) as [Mt [S _]]. unfold strongc in S.
  destruct (o_kind ob) eqn:Ko; try exact K0; (eapply KQ_trans; [exact K0|]).
  - apply Q_traversetable; [exact M0 | exact N | exact Ho | exact Ko | exact C].
  - unfold traverseLclosure. assert (K1 := Q_mark_vals s _ (proj1 K0) S). eapply KQ_trans; [exact K1|]. apply Q_travfold; [apply K1|].
    intros u I. rewrite (cu_uv_val _ _ _ (cu_mark_vals _ _)). apply U. left. exact I.
  - apply Q_mark_vals; [apply K0 | exact S].
  - unfold traverseproto. 
    assert (K1 : KQ s (match o_cache ob with Some c => if iswhite s c then modify s o (fun b => with_cache b None) else s | None => s end)).
    { destruct (o_cache ob) as [c|]; [|apply KQ_refl, K0]. destruct (iswhite s c); [|apply KQ_refl, K0]. apply Q_modify; [apply K0 | exact N|].
      intros a _. destruct a. constructor; cbn; try reflexivity; [apply Forall2_refl; intros; left; reflexivity | apply Forall2_refl; intros; split; left; reflexivity | right; reflexivity]. }
    eapply KQ_trans; [exact K1|]. apply Q_mark_vals; [apply K1 | exact S].
  - apply Q_traversethread; [apply K0 | exact N | exact S | intros u I; apply U; right; exact I].
Qed.
Lemma Q_propagate_n : forall n st, M st -> KQ st (propagate_n n st).
Proof.
  induction n as [|n IH]; intros st H; cbn; [apply KQ_refl, H|]. destruct (gray st); [apply KQ_refl, H|].
  assert (K := Q_propagatemark st H). eapply KQ_trans; [exact K|]. apply IH. exact (M_KQ _ _ H K).
Qed.
Lemma Q_propagateall : forall st, M st -> KQ st (propagateall st).
Proof. intros. apply Q_propagate_n. assumption. Qed.

(** ** The atomic phase *)

(** ** The atomic phase *)
Lemma root_eq : forall st st' o, mainth st' = mainth st -> curth st' = curth st -> registry st' = registry st -> mts st' = mts st ->
  tobefnz st' = tobefnz st -> strcache st' = strcache st -> fixedgc st' = fixedgc st -> memerr st' = memerr st -> root st' o -> root st o.
Proof.
  intros st st' o F1 F2 F3 F4 F5 F6 F7 F8 R. destruct R as [R|R|R|R|R|R|R|R];
    [apply r_main | apply r_cur | apply r_reg | apply r_mt | apply r_fin | apply r_cache | apply r_fixed | apply r_memerr]; congruence.
Qed.
Lemma Q_set_gcs : forall st g, Q st -> KQ st (set_gcs st g).
Proof.
  intros st g H. assert (E : forall x, ephm st x -> ephm (set_gcs st g) x) by (intros x A; exact A).
  split; [|split; [intros x _; reflexivity | exact E]]. constructor.
  - exact (d_obj _ H).
  - exact (d_upv _ H).
  - exact (d_touch _ H).
  - intros o R. apply (d_root _ H). refine (root_eq _ _ _ _ _ _ _ _ _ _ _ R); reflexivity.
  - exact (d_fin _ H).
  - exact (d_list _ H).
  - exact (d_eph _ H).
Qed.
Lemma M_pass : forall st st', M st -> KQ st st' -> forall st2, (M st' -> KQ st' st2) -> KQ st st2.
Proof. intros st st' H K st2 F. eapply KQ_trans; [exact K|]. apply F. exact (M_KQ _ _ H K). Qed.
Lemma set_ephemeron_lists : forall st l, set_ephemeron st l = set_lists st (gray st) (grayagain st) (weak st) (allweak st) l.
Proof. reflexivity. Qed.
Lemma Q_converge_pass : forall l st b, M st -> (forall o, In o l -> ~ D o /\ ephm st o) -> KQ st (fst (converge_pass st l b)).
Proof.
  induction l as [|o l IH]; intros st b H L; cbn [converge_pass]; [apply KQ_refl, H|].
  destruct (L o (or_introl eq_refl)) as [N Y].
  assert (K1 := Q_set2black st o (M_Q _ H) N). assert (M1 := M_KQ _ _ H K1). cbv zeta. set (s := set2black st o) in *.
  assert (L' : forall s', KQ st s' -> forall x, In x l -> ~ D x /\ ephm s' x).
  { intros s' K x I. destruct (L x (or_intror I)) as [A B]. split; [exact A | apply K, B]. }
  destruct (heap s o) as [ob|] eqn:Ho; [|apply (M_pass _ _ H K1); intros _; apply IH; [exact M1 | apply L', K1]].
  assert (Y1 : ephm s o) by (apply K1, Y). destruct (Y1 ob Ho) as [V E].
  assert (K2 := Q_traverseephemeron s o ob M1 N (f_equal (option_map o_hash) Ho) V E Y1).
  destruct (traverseephemeron s o ob) as [s2 m]. cbn in K2. assert (K12 := KQ_trans _ _ _ K1 K2).
  apply (M_pass _ _ H K12). intros M2. destruct m.
  - assert (K3 := Q_propagateall s2 M2). apply (M_pass _ _ M2 K3). intros M3. apply IH; [exact M3|]. apply L'. eapply KQ_trans; eassumption.
  - apply IH; [exact M2 | apply L', K12].
Qed.
Lemma Q_converge_n : forall n st, M st -> KQ st (converge_n n st).
Proof.
  induction n as [|n IH]; intros st H; cbn [converge_n]; [apply KQ_refl, H|].
  assert (K1 : KQ st (set_ephemeron st [])).
  { rewrite set_ephemeron_lists. apply Q_lists; [apply H| |intros o []]. intros x I. apply (Q_in _ x (M_Q _ H)). rewrite !in_app_iff in I. cbn in I. tauto. }
  assert (M1 := M_KQ _ _ H K1).
  assert (K2 := Q_converge_pass (ephemeron st) (set_ephemeron st []) false M1).
  destruct (converge_pass (set_ephemeron st []) (ephemeron st) false) as [s c]. cbn in K2.
  assert (K3 : KQ (set_ephemeron st []) s).
  { apply K2. intros o I. split; [apply (Q_in _ o (M_Q _ H)); tauto | apply K1, (d_eph _ (M_Q _ H)), I]. }
  assert (K13 := KQ_trans _ _ _ K1 K3). destruct c; [|exact K13].
  apply (M_pass _ _ H K13). apply IH.
Qed.
Lemma Q_converge : forall st, M st -> KQ st (convergeephemerons st).
Proof. intros. apply Q_converge_n. assumption. Qed.

(** Clearing. *)
Lemma vs_iscleared : forall st o, cu st (fst (iscleared st o)).
Proof. intros st [o|]; cbn; [|apply cu_refl]. destruct (kind_of st o) as [[]|]; cbn; try apply cu_refl. unfold mark. destruct (iswhite st o); [apply cu_mark_obj | apply cu_refl]. Qed.
Lemma removeentry_esub : forall k v (c : bool), esub (k, v) (removeentry (k, if c then VNil else v)).
Proof.
  intros k v c. destruct c, k as [n|o|o], v; cbn; split; cbn; try (left; reflexivity); try (right; reflexivity); try (right; exists o; repeat split; fail).
Qed.
Lemma Q_ck_loop : forall h st, Q st -> (forall k v, In (k, v) h -> v <> VNil -> strk st k) ->
  KQ st (fst (ck_loop st h)) /\ hs st (fst (ck_loop st h)) /\ Forall2 esub h (snd (ck_loop st h)).
Proof.
  induction h as [|[k v] h IH]; intros st H N; cbn; [split; [apply KQ_refl, H | split; [apply hs_refl | constructor]]|].
  assert (N' : forall st', kn st st' -> forall k v, In (k, v) h -> v <> VNil -> strk st' k).
  { intros st' K k' v' I X s Es Ks. apply (N k' v' (or_intror I) X s Es). rewrite <- (K s). exact Ks. }
  destruct (isnil v) eqn:Nv.
  - destruct (IH st H (N' _ (kn_refl _))) as [A [B C]]. destruct (ck_loop st h) as [s r]. cbn in *. split; [exact A|]. split; [exact B|].
    constructor; [apply (removeentry_esub k v false) | exact C].
  - assert (K1 := Q_isclearedk st k H (N k v (or_introl eq_refl) ltac:(destruct v; discriminate))).
    assert (S1 := hs_iscleared st (kobj k)). assert (T1 := kn_iscleared st (kobj k)).
    destruct (iscleared st (kobj k)) as [s c]. cbn in K1, S1, T1.
    destruct (IH s (proj1 K1) (N' _ T1)) as [A [B C]]. destruct (ck_loop s h) as [s2 r]. cbn in *.
    split; [eapply KQ_trans; eassumption|]. split; [eapply hs_trans; eassumption|]. constructor; [apply removeentry_esub | exact C].
Qed.
Lemma Q_clearkeys1 : forall st o, Q st -> ~ D o -> KQ st (clearkeys1 st o).
Proof.
  intros st o H N. unfold clearkeys1. destruct (heap st o) as [ob|] eqn:Ho; [|apply KQ_refl, H].
  destruct (cont_strong _ _ (d_obj _ H _ _ Ho N)) as [_ [_ X]].
  destruct (Q_ck_loop (o_hash ob) st H) as [A [B C]].
  { intros k v I Nv s -> Ks. apply (X s Ks). right. right. exists v. split; assumption. }
  destruct (ck_loop st (o_hash ob)) as [s h]. cbn in *. eapply KQ_trans; [exact A|]. apply Q_sethash; [apply A | exact N|].
  intros a Ha. specialize (B o). rewrite Ho, Ha in B. cbn in B. injection B as ->. exact C.
Qed.
Lemma Q_clearbykeys : forall st l, Q st -> (forall o, In o l -> ~ D o) -> KQ st (clearbykeys st l).
Proof. intros st l H N. apply (Q_fold _ clearkeys1 (fun o => ~ D o)); [intros; apply Q_clearkeys1; assumption | exact H | exact N]. Qed.
Lemma Q_cv_arr : forall l st, Q st -> (forall v, In v l -> strv st v) ->
  KQ st (fst (cv_arr st l)) /\ (hs st (fst (cv_arr st l)) /\ kn st (fst (cv_arr st l)) /\ cu st (fst (cv_arr st l))) /\ Forall2 vsub l (snd (cv_arr st l)).
Proof.
  induction l as [|v l IH]; intros st H N; cbn; [split; [apply KQ_refl, H | split; [split; [apply hs_refl | split; [apply kn_refl | apply cu_refl]] | constructor]]|].
  assert (N' : forall st', kn st st' -> forall v, In v l -> strv st' v).
  { intros st' K v' I s Es Ks. apply (N v' (or_intror I) s Es). rewrite <- (K s). exact Ks. }
  assert (K1 := Q_isclearedv st v H (N v (or_introl eq_refl))).
  assert (S1 := hs_iscleared st (vobj v)). assert (T1 := kn_iscleared st (vobj v)). assert (U1 := vs_iscleared st (vobj v)).
  destruct (iscleared st (vobj v)) as [s c]. cbn in K1, S1, T1, U1.
  destruct (IH s (proj1 K1) (N' _ T1)) as [A [[B [B2 B3]] C]]. destruct (cv_arr s l) as [s2 r]. cbn in *.
  split; [eapply KQ_trans; eassumption|]. split; [split; [eapply hs_trans; eassumption | split; [eapply kn_trans; eassumption | eapply cu_trans; eassumption]]|].
  constructor; [destruct c; [right | left]; reflexivity | exact C].
Qed.
Lemma Q_cv_loop : forall h st, Q st -> (forall k v, In (k, v) h -> strv st v) ->
  KQ st (fst (cv_loop st h)) /\ (hs st (fst (cv_loop st h)) /\ cu st (fst (cv_loop st h))) /\ Forall2 esub h (snd (cv_loop st h)).
Proof.
  induction h as [|[k v] h IH]; intros st H N; cbn; [split; [apply KQ_refl, H | split; [split; [apply hs_refl | apply cu_refl] | constructor]]|].
  assert (N' : forall st', kn st st' -> forall k v, In (k, v) h -> strv st' v).
  { intros st' K k' v' I s Es Ks. apply (N k' v' (or_intror I) s Es). rewrite <- (K s). exact Ks. }
  assert (K1 := Q_isclearedv st v H (N k v (or_introl eq_refl))).
  assert (S1 := hs_iscleared st (vobj v)). assert (T1 := kn_iscleared st (vobj v)). assert (U1 := vs_iscleared st (vobj v)).
  destruct (iscleared st (vobj v)) as [s c]. cbn in K1, S1, T1, U1.
  destruct (IH s (proj1 K1) (N' _ T1)) as [A [[B B3] C]]. destruct (cv_loop s h) as [s2 r]. cbn in *.
  split; [eapply KQ_trans; eassumption|]. split; [split; [eapply hs_trans; eassumption | eapply cu_trans; eassumption]|].
  constructor; [apply removeentry_esub | exact C].
Qed.
Lemma Q_clearvals1 : forall st o, Q st -> ~ D o -> KQ st (clearvals1 st o).
Proof.
  intros st o H N. unfold clearvals1. destruct (heap st o) as [ob|] eqn:Ho; [|apply KQ_refl, H].
  destruct (cont_strong _ _ (d_obj _ H _ _ Ho N)) as [_ [_ X]].
  destruct (Q_cv_arr (o_vals ob) st H) as [A [[B1 [B2 B3]] C]].
  { intros v I s -> Ks. apply (X s Ks). left. exact I. }
  destruct (cv_arr st (o_vals ob)) as [s a]. cbn in *.
  destruct (Q_cv_loop (o_hash ob) s (proj1 A)) as [E [[F1 F2] G]].
  { intros k v I y -> Ky. apply (X y); [rewrite <- (B2 y); exact Ky|]. right. left. exists k. exact I. }
  destruct (cv_loop s (o_hash ob)) as [s2 h]. cbn in *.
  eapply KQ_trans; [exact A|]. eapply KQ_trans; [exact E|]. apply Q_modify; [apply E | exact N|].
  intros b Hb. assert (Z1 := hs_trans _ _ _ B1 F1 o). assert (Z2 := proj2 (cu_trans _ _ _ B3 F2) o). rewrite Ho, Hb in Z1, Z2. cbn in Z1, Z2.
  injection Z1 as Z1. injection Z2 as Z2. destruct b; cbn in *. subst. constructor; cbn; try reflexivity; try assumption. left. reflexivity.
Qed.
Lemma Q_clearbyvalues : forall st l, Q st -> (forall o, In o l -> ~ D o) -> KQ st (clearbyvalues st l).
Proof. intros st l H N. apply (Q_fold _ clearvals1 (fun o => ~ D o)); [intros; apply Q_clearvals1; assumption | exact H | exact N]. Qed.

(** Steps that change the roots. *)
Lemma Q_roots : forall st st', Q st -> heap st' = heap st -> uvs st' = uvs st -> ephemeron st' = ephemeron st ->
  (forall o, root st' o -> ~ D o) -> (forall o, In o (finobj st') -> ~ D o) -> glists [] st' = glists [] st -> KQ st st'.
Proof.
  intros st st' H E1 E2 E3 R F L.
  assert (Ek : forall x, kind_of st' x = kind_of st x) by (intros x; unfold kind_of; rewrite E1; reflexivity).
  assert (Ew : forall ob, weakmode st' ob = weakmode st ob) by (intros ob; unfold weakmode; rewrite E1; reflexivity).
  assert (Eu : forall u, uv_val st' u = uv_val st u) by (intros u; unfold uv_val; rewrite E1, E2; reflexivity).
  assert (Y : forall x, ephm st x -> ephm st' x).
  { intros x A ob Hb. rewrite E1 in Hb. destruct (A ob Hb) as [V B]. split; [exact V|]. intros k v I Nv. destruct (B k v I Nv) as [P P2]. split; [|exact P2].
    intros s Es Ks. rewrite Ek in Ks. exact (P s Es Ks). }
  split; [|split; [intros x _; rewrite E1; reflexivity | exact Y]]. constructor.
  - intros o ob Hb N. rewrite E1 in Hb. destruct (d_obj _ H _ _ Hb N) as [A B]. split; [exact A|]. destruct full; [exact B|]. destruct B as [B C].
    split; [rewrite Ew; exact B|]. intros s Ks. rewrite Ek in Ks. exact (C s Ks).
  - intros o ob u Hb N I. rewrite E1 in Hb. rewrite Eu. exact (d_upv _ H _ _ _ Hb N I).
  - intros u th i X. rewrite E2 in X. rewrite Eu. exact (d_touch _ H _ _ _ X).
  - exact R.
  - exact F.
  - rewrite L. exact (d_list _ H).
  - intros o I. rewrite E3 in I. apply Y, (d_eph _ H), I.
Qed.
Lemma Q_separate : forall st, Q st -> KQ st (separatetobefnz st).
Proof.
  intros st H. apply Q_roots; [exact H | reflexivity | reflexivity | reflexivity| | |reflexivity].
  - intros o R. destruct R as [R|R|R|R|R|R|R|R]; cbn in R;
      try (apply (d_root _ H); first [apply r_main, R | apply r_cur, R | apply r_reg, R | apply r_mt, R | apply r_cache, R | apply r_fixed, R | apply r_memerr, R]).
    apply in_app_iff in R. destruct R as [I|I]; [apply (d_root _ H); apply r_fin; exact I|]. apply filter_In in I. apply (d_fin _ H), I.
  - cbn. intros o I. apply filter_In in I. apply (d_fin _ H), I.
Qed.
Lemma Q_clearcache : forall st, Q st -> KQ st (clearcache st).
Proof.
  intros st H. apply Q_roots; [exact H | reflexivity | reflexivity | reflexivity| |exact (d_fin _ H)|reflexivity].
  intros o R. destruct R as [R|R|R|R|R|R|R|R]; cbn in R;
    try (apply (d_root _ H); first [apply r_main, R | apply r_cur, R | apply r_reg, R | apply r_mt, R | apply r_fin, R | apply r_fixed, R | apply r_memerr, R]).
  apply in_map_iff in R. destruct R as [s [E I]]. destruct (iswhite st s); subst; apply (d_root _ H); [apply r_memerr; reflexivity | apply r_cache; exact I].
Qed.
Lemma Q_set_cw : forall st b, Q st -> KQ st (set_cw st b).
Proof.
  intros st b H. apply Q_roots; [exact H | reflexivity | reflexivity | reflexivity| |exact (d_fin _ H)|reflexivity].
  intros o R. apply (d_root _ H). refine (root_eq _ _ _ _ _ _ _ _ _ _ _ R); reflexivity.
Qed.
Lemma Q_markbeingfnz : forall st, Q st -> KQ st (markbeingfnz st).
Proof.
  intros st H. apply (Q_fold _ mark (fun o => ~ D o)); [intros; apply Q_mark; assumption | exact H|].
  intros o I. apply (d_root _ H). apply r_fin, I.
Qed.
Lemma Q_markmt : forall st, Q st -> KQ st (markmt st).
Proof.
  intros st H. apply (Q_fold _ mark_opt (fun v => forall o, v = Some o -> ~ D o)); [intros; apply Q_mark_opt; assumption | exact H|].
  intros v I o ->. apply (d_root _ H). apply r_mt, I.
Qed.
Lemma Q_markroots : forall st r, Q st -> ~ D r -> KQ st (markmt (mark_val (mark st r) (registry (mark st r)))).
Proof.
  intros st r H N. assert (K1 := Q_mark st r H N). eapply KQ_trans; [exact K1|].
  assert (K2 : KQ (mark st r) (mark_val (mark st r) (registry (mark st r)))).
  { apply Q_mark_val; [apply K1|]. intros b E. apply (d_root _ (proj1 K1)). apply r_reg, E. }
  eapply KQ_trans; [exact K2|]. apply Q_markmt, K2.
Qed.
Lemma Q_restart : forall st, Q st -> KQ st (restartcollection st).
Proof.
  intros st H. unfold restartcollection.
  assert (K1 : KQ st (set_lists st [] [] [] [] [])) by (apply Q_lists; [exact H | intros o [] | intros o []]).
  eapply KQ_trans; [exact K1|]. assert (K2 := Q_markroots _ (mainth st) (proj1 K1) (d_root _ H _ (r_main _ _ eq_refl))).
  eapply KQ_trans; [exact K2|]. apply Q_markbeingfnz, K2.
Qed.
Lemma Q_atomic_mark : forall st, M st -> KQ st (atomic_mark st).
Proof.
  intros st H. unfold atomic_mark.
  assert (K1 : KQ st (set_grayagain st [])).
  { apply (Q_lists st (gray st) [] (weak st) (allweak st) (ephemeron st)); [apply H| |tauto]. intros x I. apply (Q_in _ x (M_Q _ H)). rewrite !in_app_iff in I. cbn in I. tauto. }
  assert (K2 := Q_set_gcs _ GCSatomic (proj1 K1)). assert (K12 := KQ_trans _ _ _ K1 K2).
  assert (Sv : forall x, In x (grayagain st) -> ~ D x) by (intros x I; apply (Q_in _ x (M_Q _ H)); tauto).
  set (s0 := set_gcs (set_grayagain st []) GCSatomic) in *. cbv zeta. set (sv := grayagain st) in *. clearbody sv.
  apply (M_pass _ _ H K12). intros M0. clear K1 K2 K12. clearbody s0. clear H.
  assert (K3 := Q_markroots s0 (curth s0) (M_Q _ M0) (d_root _ (M_Q _ M0) _ (r_cur _ _ eq_refl))).
  set (s3 := markmt _) in *. clearbody s3. apply (M_pass _ _ M0 K3). clear K3. intros M3.
  apply (M_pass _ _ M3 (Q_propagateall _ M3)). intros M4. set (s4 := propagateall s3) in *. clearbody s4.
  apply (M_pass _ _ M4 (Q_remarkupvals _ (M_Q _ M4))). intros M5. set (s5 := remarkupvals s4) in *. clearbody s5.
  apply (M_pass _ _ M5 (Q_propagateall _ M5)). intros M6. set (s6 := propagateall s5) in *. clearbody s6.
  assert (K7 : KQ s6 (set_gray s6 sv)).
  { apply (Q_lists s6 sv (grayagain s6) (weak s6) (allweak s6) (ephemeron s6)); [apply M6| |tauto]. intros x I. rewrite !in_app_iff in I.
    destruct I as [I|I]; [apply Sv, I | apply (Q_in _ x (M_Q _ M6)); tauto]. }
  apply (M_pass _ _ M6 K7). intros M7. apply (M_pass _ _ M7 (Q_propagateall _ M7)). intros M8. apply Q_converge, M8.
Qed.
Lemma upto_in : forall l o x, In x (upto l o) -> In x l.
Proof. intros l o x I. exact (firstn_In' _ _ _ _ I). Qed.
Lemma Q_atomic_fin : forall st, M st -> KQ st (atomic_fin st).
Proof.
  intros st H. unfold atomic_fin.
  assert (L : forall s, M s -> forall x, In x (weak s) \/ In x (allweak s) \/ In x (ephemeron s) -> ~ D x) by (intros s Hs x I; apply (Q_in _ x (M_Q _ Hs)); tauto).
  apply (M_pass _ _ H (Q_clearbyvalues _ _ (M_Q _ H) (fun x I => L _ H x (or_introl I)))). clear H. intros H.
  set (s1 := clearbyvalues st (weak st)) in *. clearbody s1. clear st.
  apply (M_pass _ _ H (Q_clearbyvalues _ _ (M_Q _ H) (fun x I => L _ H x (or_intror (or_introl I))))). clear H. intros H.
  set (st := clearbyvalues s1 (allweak s1)) in *. clearbody st. clear s1. cbv zeta. set (ow := weak st). set (oa := allweak st). clearbody ow oa.
  apply (M_pass _ _ H (Q_separate _ (M_Q _ H))). clear H. intros H. set (s1 := separatetobefnz st) in *. clearbody s1. clear st.
  apply (M_pass _ _ H (Q_markbeingfnz _ (M_Q _ H))). clear H. intros H. set (st := markbeingfnz s1) in *. clearbody st. clear s1.
  apply (M_pass _ _ H (Q_propagateall _ H)). clear H. intros H. set (s1 := propagateall st) in *. clearbody s1. clear st.
  apply (M_pass _ _ H (Q_converge _ H)). clear H. intros H. set (st := convergeephemerons s1) in *. clearbody st. clear s1.
  apply (M_pass _ _ H (Q_clearbykeys _ _ (M_Q _ H) (fun x I => L _ H x (or_intror (or_intror I))))). clear H. intros H. set (s1 := clearbykeys st (ephemeron st)) in *. clearbody s1. clear st.
  apply (M_pass _ _ H (Q_clearbykeys _ _ (M_Q _ H) (fun x I => L _ H x (or_intror (or_introl I))))). clear H. intros H. set (st := clearbykeys s1 (allweak s1)) in *. clearbody st. clear s1.
  apply (M_pass _ _ H (Q_clearbyvalues _ (upto (weak st) ow) (M_Q _ H) (fun x I => L _ H x (or_introl (upto_in _ _ _ I))))). clear H. intros H.
  set (s1 := clearbyvalues st (upto (weak st) ow)) in *. clearbody s1. clear st.
  apply (M_pass _ _ H (Q_clearbyvalues _ (upto (allweak s1) oa) (M_Q _ H) (fun x I => L _ H x (or_intror (or_introl (upto_in _ _ _ I)))))). clear H. intros H.
  apply Q_clearcache, H.
Qed.
Lemma Q_atomic : forall st, M st -> KQ st (atomic st).
Proof.
  intros st H. unfold atomic. apply (M_pass _ _ H (Q_atomic_mark _ H)). intros H1. apply (M_pass _ _ H1 (Q_atomic_fin _ H1)). intros H2.
  apply Q_set_cw, H2.
Qed.
End dead.
