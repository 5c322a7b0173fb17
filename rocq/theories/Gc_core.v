(** What holds at every moment of an execution, whatever the collector is doing. *)
From Coq Require Import ZArith List Bool Arith Lia.
From Verif Require Import Base Gc_model Gc_spec Gc_facts Gc_tri Gc_trav Gc_prop Gc_atomic Gc_fin.
Import ListNotations.
Local Open Scope nat_scope.

Definition alive (st : gst) (o : id) : Prop := heap st o <> None /\ isdead st o = false.

Record Core (st : gst) : Prop := {
  q_kwf : forall o ob, heap st o = Some ob -> kwf ob;
  q_meta : forall o ob m, alive st o -> heap st o = Some ob -> o_meta ob = Some m -> kind_of st m = Some KTable;
  q_lt : forall o ob, heap st o = Some ob -> o < nextid st;
  q_uvwf : uvwf st;
  q_open : forall o ob u, heap st o = Some ob -> In u (o_open ob) -> exists i t, uvs st u = Some (UOpen o i t);
  q_upv : forall o ob u, heap st o = Some ob -> In u (o_upv ob) -> uvs st u <> None;
  q_fresh : forall u, nextuv st <= u -> uvs st u = None;
  q_fix : forall o, In o (fixedgc st) -> kind_of st o = Some KStr /\ iswhite st o = false;
  q_mem : In (memerr st) (fixedgc st);
  q_cur : kind_of st (curth st) = Some KThread;
  q_edge : forall a b, alive st a -> edge st a b -> alive st b;
  q_root : forall o, root st o -> alive st o;
  q_tw : forall o, In o (twups st) -> alive st o;
  q_twopen : forall o ob, heap st o = Some ob -> o_open ob <> [] -> In o (twups st) \/ isdead st o = true
}.

Lemma alive_reach : forall st, Core st -> forall o, reach st o -> alive st o.
Proof.
  intros st C o R. induction R as [o R | a b R IH E]; [apply (q_root _ C o R) | apply (q_edge _ C a b IH E)].
Qed.

Lemma open_kthread : forall ob, kwf ob -> o_open ob <> [] -> o_kind ob = KThread.
Proof.
  intros ob K O. unfold kwf in K. destruct (o_kind ob); try reflexivity; exfalso; apply O; tauto.
Qed.

Lemma alive_kind : forall st o k, kind_of st o = Some k -> exists ob, heap st o = Some ob /\ o_kind ob = k.
Proof. intros st o k H. unfold kind_of in H. destruct (heap st o) as [ob|]; [|discriminate]. exists ob. split; [reflexivity | congruence]. Qed.

Lemma fixstr_core : forall st, Core st -> fixstr st.
Proof. intros st C o I. apply (q_fix _ C o I). Qed.

(** ** Only the roots and lists differ *)
Lemma edge_same : forall st st' a b, heap st' = heap st -> uvs st' = uvs st -> edge st' a b -> edge st a b.
Proof.
  intros st st' a b H U E. destruct E; rewrite ?H, ?U in *.
  - eapply e_meta; eassumption.
  - eapply e_val; eassumption.
  - eapply e_key; eassumption.
  - eapply e_hval; eassumption.
  - eapply e_cache; eassumption.
  - eapply e_closed; eassumption.
  - eapply e_open; eassumption.
Qed.

Lemma alive_same : forall st st' o, heap st' = heap st -> cw st' = cw st -> alive st' o <-> alive st o.
Proof. intros st st' o H C. unfold alive, isdead. rewrite H, C. reflexivity. Qed.

Lemma Core_same : forall st st', Core st -> heap st' = heap st -> uvs st' = uvs st -> nextid st' = nextid st -> nextuv st' = nextuv st ->
  cw st' = cw st -> fixedgc st' = fixedgc st -> memerr st' = memerr st -> twups st' = twups st ->
  kind_of st (curth st') = Some KThread ->
  (forall o, root st' o -> alive st o) -> Core st'.
Proof.
  intros st st' C H U N NU W F M T K R. destruct C.
  assert (A : forall o, alive st' o <-> alive st o) by (intros; apply alive_same; assumption).
  assert (Kd : forall o, kind_of st' o = kind_of st o) by (intros; unfold kind_of; rewrite H; reflexivity).
  assert (Dd : forall o, isdead st' o = isdead st o) by (intros; unfold isdead; rewrite H, W; reflexivity).
  assert (Wd : forall o, iswhite st' o = iswhite st o) by (intros; unfold iswhite; rewrite H; reflexivity).
  constructor.
  - rewrite H. exact q_kwf0.
  - intros o ob m Ao E1 E2. rewrite Kd. rewrite H in E1. apply A in Ao. eapply q_meta0; eassumption.
  - rewrite H, N. exact q_lt0.
  - intros u th i t E. rewrite U in E. rewrite H. eapply q_uvwf0; eassumption.
  - intros o ob u E. rewrite H in E. rewrite U. eapply q_open0; eassumption.
  - intros o ob u E. rewrite H in E. rewrite U. eapply q_upv0; eassumption.
  - intros u L. rewrite U. apply q_fresh0. rewrite <- NU. exact L.
  - intros o I. rewrite F in I. rewrite Kd, Wd. apply q_fix0, I.
  - rewrite F, M. exact q_mem0.
  - rewrite Kd. exact K.
  - intros a b Aa E. apply A. apply A in Aa. apply (q_edge0 a b Aa). apply (edge_same st st' a b H U E).
  - intros o Ro. apply A, R, Ro.
  - intros o I. rewrite T in I. apply A, q_tw0, I.
  - intros o ob E Ho. rewrite H in E. rewrite T, Dd. apply (q_twopen0 o ob E Ho).
Qed.

Lemma Core_roots_same : forall st st', Core st -> mainth st' = mainth st -> curth st' = curth st -> registry st' = registry st ->
  mts st' = mts st -> tobefnz st' = tobefnz st -> strcache st' = strcache st -> fixedgc st' = fixedgc st -> memerr st' = memerr st ->
  forall o, root st' o -> alive st o.
Proof.
  intros st st' C H1 H2 H3 H4 H5 H6 H7 H8 o R. apply (q_root _ C o). destruct R; rewrite ?H1, ?H2, ?H3, ?H4, ?H5, ?H6, ?H7, ?H8 in *.
  - apply r_main; assumption.
  - apply r_cur; assumption.
  - apply r_reg; assumption.
  - apply r_mt; assumption.
  - apply r_fin; assumption.
  - apply r_cache; assumption.
  - apply r_fixed; assumption.
  - apply r_memerr; assumption.
Qed.

(** Everything but lists, the sweep position and the phase is unchanged. *)
Lemma Core_lists : forall st st', Core st -> heap st' = heap st -> uvs st' = uvs st -> nextid st' = nextid st -> nextuv st' = nextuv st ->
  cw st' = cw st -> fixedgc st' = fixedgc st -> memerr st' = memerr st -> twups st' = twups st ->
  mainth st' = mainth st -> curth st' = curth st -> registry st' = registry st ->
  mts st' = mts st -> tobefnz st' = tobefnz st -> strcache st' = strcache st -> Core st'.
Proof.
  intros st st' C H1 H2 H3 H4 H5 H6 H7 H8 H9 H10 H11 H12 H13 H14.
  apply (Core_same st st' C); try assumption.
  - rewrite H10. apply (q_cur _ C).
  - apply (Core_roots_same st st' C); assumption.
Qed.

(** ** Marking, when nothing is dead *)

Definition allcw (st : gst) : Prop := forall o ob w, heap st o = Some ob -> o_col ob = White w -> w = cw st.

Lemma allcw_dead : forall st o, allcw st -> isdead st o = false.
Proof.
  intros st o A. unfold isdead. destruct (heap st o) as [ob|] eqn:H; [|reflexivity]. destruct (o_col ob) as [w| |] eqn:Hc; try reflexivity.
  rewrite (A o ob w H Hc). destruct (cw st); reflexivity.
Qed.

Lemma allcw_shr0 : forall st st', allcw st -> shr0 st st' -> allcw st'.
Proof.
  intros st st' A S o b w H Hc. destruct (shr0_inv _ _ _ _ S H) as [a [Ea Sa]].
  assert (W : is_whitec (o_col b) = true) by (rewrite Hc; reflexivity). rewrite (os_col _ _ Sa W) in Hc.
  rewrite (A o a w Ea Hc). pose proof (s0_fld _ _ S) as F. symmetry. tauto.
Qed.

Lemma edge_shr0 : forall st st' a b, shr0 st st' -> edge st' a b -> edge st a b.
Proof.
  intros st st' a b S E.
  assert (UV : forall u, usub (uvs st u) (uvs st' u)) by apply (s0_uv _ _ S).
  destruct E as [ob H E | ob H E | ob v H E | ob k H E | ob H E | ob u H I E | ob u th i t tb H I E Ht Hn];
    destruct (shr0_inv _ _ _ _ S H) as [oa [Ea Sa]].
  - apply (e_meta st a b oa Ea). rewrite <- (os_meta _ _ Sa). exact E.
  - apply (e_val st a b oa Ea), (Forall2_vsub_in _ _ _ (os_vals _ _ Sa) E).
  - destruct (Forall2_esub_in _ _ _ _ (os_hash _ _ Sa) E) as [k0 [v0 [I0 [Ek _]]]]. cbn in Ek.
    destruct Ek as [Ek | [x [_ [Ek _]]]]; [|discriminate]. subst k0. apply (e_key st a b oa v0 Ea I0).
  - destruct (Forall2_esub_in _ _ _ _ (os_hash _ _ Sa) E) as [k0 [v0 [I0 [_ Ev]]]]. cbn in Ev.
    destruct Ev as [Ev | Ev]; [|discriminate]. subst v0. apply (e_hval st a b oa k0 Ea I0).
  - destruct (os_cache _ _ Sa) as [Ec | Ec]; [|congruence]. apply (e_cache st a b oa Ea). congruence.
  - rewrite (os_upv _ _ Sa) in I. specialize (UV u). rewrite E in UV. destruct (uvs st u) as [[th i t|v]|] eqn:Eu; cbn in UV.
    + destruct UV as [t1 UV]. discriminate.
    + inversion UV; subst v. apply (e_closed st a b oa u Ea I Eu).
    + discriminate.
  - rewrite (os_upv _ _ Sa) in I. specialize (UV u). rewrite E in UV. destruct (uvs st u) as [[th0 i0 t0|v]|] eqn:Eu; cbn in UV.
    + destruct UV as [t1 UV]. inversion UV; subst. destruct (shr0_inv _ _ _ _ S Ht) as [ta [Et St]].
      apply (e_open st a b oa u th0 i0 t0 ta Ea I Eu Et).
      pose proof (os_vals _ _ St) as F. clear -F Hn. revert i0 Hn. induction F as [|x y l l' V F IH]; intros i Hn; destruct i; cbn in *; try discriminate.
      * inversion Hn; subst. destruct V as [V | V]; [congruence | discriminate].
      * apply IH, Hn.
    + discriminate.
    + discriminate.
Qed.

Lemma Core_shr0 : forall st st', Core st -> allcw st -> shr0 st st' ->
  (forall o, In o (twups st') -> heap st o <> None) ->
  (forall o ob, heap st' o = Some ob -> o_open ob <> [] -> In o (twups st')) ->
  (forall o, In o (tobefnz st') -> heap st o <> None) ->
  (forall o, In o (strcache st') -> heap st o <> None) -> Core st' /\ allcw st'.
Proof.
  intros st st' C A S T1 T2 R1 R2. pose proof (allcw_shr0 _ _ A S) as A'. split; [|exact A'].
  pose proof (s0_fld _ _ S) as F. destruct F as [Fn [Fu [Fc [Fa [Ff [Fm [Ft [Fr [Fx Fe]]]]]]]]].
  assert (Al : forall o, heap st o <> None -> alive st' o).
  { intros o H. split; [|apply allcw_dead, A']. destruct (heap st o) as [a|] eqn:E; [|congruence].
    destruct (s0_some _ _ S o a E) as [b [Eb _]]. congruence. }
  assert (Al0 : forall o, alive st' o -> alive st o).
  { intros o [H _]. split; [|apply allcw_dead, A]. intros E. apply H, (s0_none _ _ S o E). }
  destruct C. constructor.
  - intros o b E. destruct (shr0_inv _ _ _ _ S E) as [a [Ea Sa]]. apply (kwf_osub a b Sa), (q_kwf0 o a Ea).
  - intros o b m Ao E Hm. destruct (shr0_inv _ _ _ _ S E) as [a [Ea Sa]]. rewrite (shr0_kind _ _ _ S).
    apply (q_meta0 o a m (Al0 o Ao) Ea). rewrite <- (os_meta _ _ Sa). exact Hm.
  - intros o b E. destruct (shr0_inv _ _ _ _ S E) as [a [Ea _]]. rewrite Fn. apply (q_lt0 o a Ea).
  - intros u th i t E. pose proof (s0_uv _ _ S u) as UV. rewrite E in UV.
    destruct (uvs st u) as [[th0 i0 t0|v]|] eqn:E0; cbn in UV; try discriminate.
    destruct UV as [t1 UV]. inversion UV; subst. destruct (q_uvwf0 u th0 i0 t0 E0) as [ob [Hb I]].
    destruct (s0_some _ _ S th0 ob Hb) as [b [Hb' Sb]]. exists b. split; [exact Hb'|]. rewrite (os_open _ _ Sb). exact I.
  - intros o b u E I. destruct (shr0_inv _ _ _ _ S E) as [a [Ea Sa]]. rewrite (os_open _ _ Sa) in I.
    destruct (q_open0 o a u Ea I) as [i [t Eu]]. pose proof (s0_uv _ _ S u) as UV. rewrite Eu in UV. cbn in UV. destruct UV as [t1 UV]. eauto.
  - intros o b u E I. destruct (shr0_inv _ _ _ _ S E) as [a [Ea Sa]]. rewrite (os_upv _ _ Sa) in I.
    pose proof (q_upv0 o a u Ea I) as N. pose proof (s0_uv _ _ S u) as UV. destruct (uvs st u) as [[]|]; cbn in UV; [|rewrite UV; discriminate|congruence].
    destruct UV as [t1 UV]. rewrite UV. discriminate.
  - intros u L. rewrite Fu in L. pose proof (s0_uv _ _ S u) as UV. rewrite (q_fresh0 u L) in UV. exact UV.
  - intros o I. rewrite Ff in I. destruct (q_fix0 o I) as [K W]. split; [rewrite (shr0_kind _ _ _ S); exact K | apply (shr0_nw _ _ _ S W)].
  - rewrite Ff, Fe. exact q_mem0.
  - rewrite Ft, (shr0_kind _ _ _ S). exact q_cur0.
  - intros a b Aa E. apply Al. apply (q_edge0 a b (Al0 a Aa) (edge_shr0 _ _ _ _ S E)).
  - intros o R. apply Al.
    assert (Q : forall x, root st x -> heap st x <> None) by (intros x Rx; apply (q_root0 x Rx)).
    destruct R as [E | E | E | E | E | E | E | E].
    + apply Q, r_main. congruence.
    + apply Q, r_cur. congruence.
    + apply Q, r_reg. congruence.
    + apply Q, r_mt. rewrite <- Fx. exact E.
    + apply R1, E.
    + apply R2, E.
    + apply Q, r_fixed. rewrite <- Ff. exact E.
    + apply Q, r_memerr. congruence.
  - intros o I. apply Al, T1, I.
  - intros o ob E Ho. left. apply (T2 o ob E Ho).
Qed.

(** ** Painting one object *)

Lemma edge_setcol : forall st o c a b, edge (setcol st o c) a b -> edge st a b.
Proof.
  intros st o c a b E.
  assert (Hh : forall x xb, heap (setcol st o c) x = Some xb -> exists yb, heap st x = Some yb /\ (xb = yb \/ xb = with_col yb c)).
  { intros x xb H. rewrite heap_setcol in H. destruct (Nat.eqb_spec x o) as [->|]; [|eauto].
    destruct (heap st o) as [yb|]; [|discriminate]. inversion H. eauto. }
  assert (Uv : uvs (setcol st o c) = uvs st) by (unfold setcol; rewrite modify_rest; reflexivity).
  destruct E as [ob H E | ob H E | ob v H E | ob k H E | ob H E | ob u H I E | ob u th i t tb H I E Ht Hn];
    destruct (Hh _ _ H) as [yb [Hy [Q | Q]]]; subst ob; rewrite ?Uv in *; cbn [with_col o_meta o_vals o_hash o_cache o_upv] in *.
  - eapply e_meta; eassumption.
  - eapply e_meta; eassumption.
  - eapply e_val; eassumption.
  - eapply e_val; eassumption.
  - eapply e_key; eassumption.
  - eapply e_key; eassumption.
  - eapply e_hval; eassumption.
  - eapply e_hval; eassumption.
  - eapply e_cache; eassumption.
  - eapply e_cache; eassumption.
  - eapply e_closed; eassumption.
  - eapply e_closed; eassumption.
  - destruct (Hh _ _ Ht) as [zb [Hz Qz]]. apply (e_open st a b yb u th i t zb Hy I E Hz). destruct Qz as [-> | ->]; exact Hn.
  - destruct (Hh _ _ Ht) as [zb [Hz Qz]]. apply (e_open st a b yb u th i t zb Hy I E Hz). destruct Qz as [-> | ->]; exact Hn.
Qed.

Lemma setcol_fields : forall st o c,
  nextid (setcol st o c) = nextid st /\ uvs (setcol st o c) = uvs st /\ nextuv (setcol st o c) = nextuv st /\ cw (setcol st o c) = cw st /\
  gcs (setcol st o c) = gcs st /\ allgc (setcol st o c) = allgc st /\ finobj (setcol st o c) = finobj st /\ tobefnz (setcol st o c) = tobefnz st /\
  fixedgc (setcol st o c) = fixedgc st /\ sweepgc (setcol st o c) = sweepgc st /\ twups (setcol st o c) = twups st /\
  mainth (setcol st o c) = mainth st /\ curth (setcol st o c) = curth st /\ registry (setcol st o c) = registry st /\ mts (setcol st o c) = mts st /\
  strcache (setcol st o c) = strcache st /\ memerr (setcol st o c) = memerr st.
Proof. intros. unfold setcol. rewrite modify_rest. repeat split. Qed.

Lemma kind_setcol : forall st o c x, kind_of (setcol st o c) x = kind_of st x.
Proof.
  intros. unfold kind_of. rewrite heap_setcol. destruct (Nat.eqb_spec x o) as [->|]; [|reflexivity]. destruct (heap st o); reflexivity.
Qed.

Lemma str_noedge : forall st a b, (forall o ob, heap st o = Some ob -> kwf ob) -> kind_of st a = Some KStr -> ~ edge st a b.
Proof.
  intros st a b T K E. apply alive_kind in K. destruct K as [ob [H K]]. pose proof (T a ob H) as W. unfold kwf in W. rewrite K in W.
  destruct W as [W1 [W2 [W3 [W4 [W5 W6]]]]].
  destruct E as [x Hx Ex | x Hx Ex | x v Hx Ex | x k Hx Ex | x Hx Ex | x u Hx I Ex | x u th i t tb Hx I Ex Ht Hn];
    rewrite H in Hx; inversion Hx; subst x.
  - congruence.
  - rewrite W2 in Ex. destruct Ex.
  - rewrite W3 in Ex. destruct Ex.
  - rewrite W3 in Ex. destruct Ex.
  - congruence.
  - rewrite W4 in I. destruct I.
  - rewrite W4 in I. destruct I.
Qed.

Lemma Core_setcol : forall st o c, Core st -> alive st o \/ kind_of st o = Some KStr ->
  c <> White (negb (cw st)) -> (is_whitec c = true -> ~ In o (fixedgc st)) -> Core (setcol st o c).
Proof.
  intros st o c C Ao Hc Fx.
  destruct (setcol_fields st o c) as [F1 [F2 [F3 [F4 [F5 [F6 [F7 [F8 [F9 [F10 [F11 [F12 [F13 [F14 [F15 [F16 F17]]]]]]]]]]]]]]]].
  assert (D : forall x, isdead (setcol st o c) x = true -> isdead st x = true).
  { intros x. unfold isdead. rewrite F4, heap_setcol. destruct (Nat.eqb_spec x o) as [->|]; [|auto].
    destruct (heap st o) as [ob|]; [|auto]. cbn. destruct c as [w| |]; try discriminate. intros E. exfalso. apply Hc. f_equal.
    destruct w, (cw st); try discriminate; reflexivity. }
  assert (Do : isdead (setcol st o c) o = false).
  { unfold isdead. rewrite F4, heap_setcol, Nat.eqb_refl. destruct (heap st o); [|reflexivity]. cbn. destruct c as [w| |]; try reflexivity.
    destruct (Bool.eqb w (cw st)) eqn:Q; [reflexivity|]. exfalso. apply Hc. f_equal. destruct w, (cw st); try discriminate; reflexivity. }
  assert (Dn : forall x, x <> o -> isdead (setcol st o c) x = isdead st x).
  { intros x n. unfold isdead. rewrite F4, heap_setcol. apply Nat.eqb_neq in n. rewrite n. reflexivity. }
  assert (Hn : forall x, heap (setcol st o c) x = None <-> heap st x = None).
  { intros x. rewrite heap_setcol. destruct (Nat.eqb_spec x o) as [->|]; [|reflexivity]. destruct (heap st o); split; intros E; cbn in *; congruence. }
  assert (A : forall x, alive st x -> alive (setcol st o c) x).
  { intros x [H1 H2]. split; [rewrite Hn; exact H1|]. destruct (isdead (setcol st o c) x) eqn:E; [|reflexivity]. rewrite (D x E) in H2. discriminate. }
  assert (B : forall x, alive (setcol st o c) x -> alive st x \/ (x = o /\ kind_of st o = Some KStr)).
  { intros x [H1 H2]. rewrite Hn in H1. destruct (Nat.eq_dec x o) as [->|n].
    - destruct Ao as [Ao | Ao]; [left; exact Ao | right; split; [reflexivity | exact Ao]].
    - left. split; [exact H1 | rewrite <- (Dn x n); exact H2]. }
  assert (Hh : forall x xb, heap (setcol st o c) x = Some xb -> exists yb, heap st x = Some yb /\ (xb = yb \/ (x = o /\ xb = with_col yb c))).
  { intros x xb H. rewrite heap_setcol in H. destruct (Nat.eqb_spec x o) as [->|]; [|eauto].
    destruct (heap st o) as [yb|]; [|discriminate]. inversion H. exists yb. split; [reflexivity | right; split; reflexivity]. }
  pose proof C as C0. destruct C. constructor.
  - intros x xb H. destruct (Hh x xb H) as [yb [Hy [-> | [_ ->]]]]; [apply (q_kwf0 x yb Hy) | apply kwf_with_col, (q_kwf0 x yb Hy)].
  - intros x xb m Ax H Hm. rewrite kind_setcol. destruct (Hh x xb H) as [yb [Hy Q]].
    assert (My : o_meta yb = Some m) by (destruct Q as [-> | [_ ->]]; exact Hm).
    destruct (B x Ax) as [Bx | [-> Ks]]; [apply (q_meta0 x yb m Bx Hy My)|]. exfalso.
    pose proof (q_kwf0 o yb Hy) as W. unfold kwf in W. unfold kind_of in Ks. rewrite Hy in Ks. inversion Ks as [K]. rewrite K in W. destruct W; congruence.
  - intros x xb H. rewrite F1. destruct (Hh x xb H) as [yb [Hy _]]. apply (q_lt0 x yb Hy).
  - intros u th i t E. rewrite F2 in E. destruct (q_uvwf0 u th i t E) as [ob [Hb I]].
    rewrite heap_setcol. destruct (Nat.eqb_spec th o) as [->|]; [rewrite Hb; cbn; eexists; split; [reflexivity | exact I] | eauto].
  - intros x xb u H I. rewrite F2. destruct (Hh x xb H) as [yb [Hy [-> | [_ ->]]]]; apply (q_open0 x yb u Hy I).
  - intros x xb u H I. rewrite F2. destruct (Hh x xb H) as [yb [Hy [-> | [_ ->]]]]; apply (q_upv0 x yb u Hy I).
  - intros u L. rewrite F2. apply q_fresh0. rewrite F3 in L. exact L.
  - intros x I. rewrite F9 in I. rewrite kind_setcol. destruct (q_fix0 x I) as [K W]. split; [exact K|].
    unfold iswhite in *. rewrite heap_setcol. destruct (Nat.eqb_spec x o) as [->|]; [|exact W].
    destruct (heap st o); [|reflexivity]. cbn. destruct (is_whitec c) eqn:Wc; [|reflexivity]. exfalso. apply (Fx eq_refl I).
  - rewrite F9, F17. exact q_mem0.
  - rewrite F13, kind_setcol. exact q_cur0.
  - intros a b Aa E. apply A. apply edge_setcol in E. destruct (B a Aa) as [Ba | [-> Ks]]; [apply (q_edge0 a b Ba E)|].
    exfalso. apply (str_noedge st o b q_kwf0 Ks E).
  - intros x R. apply A. apply (Core_roots_same st (setcol st o c) C0); assumption.
  - intros x I. rewrite F11 in I. apply A, q_tw0, I.
  - intros x xb H Ho. rewrite F11. destruct (Hh x xb H) as [yb [Hy Q]].
    assert (Oy : o_open yb <> []) by (destruct Q as [-> | [_ ->]]; exact Ho).
    destruct (q_twopen0 x yb Hy Oy) as [I | I]; [left; exact I|]. right.
    destruct (Nat.eq_dec x o) as [->|n]; [|rewrite (Dn x n); exact I]. exfalso. destruct Ao as [[_ Ao] | Ao]; [congruence|].
    pose proof (q_kwf0 o yb Hy) as W. unfold kwf in W. unfold kind_of in Ao. rewrite Hy in Ao. inversion Ao as [K]. rewrite K in W. apply Oy. tauto.
Qed.

Lemma Core_makewhite : forall st o, Core st -> alive st o \/ kind_of st o = Some KStr -> ~ In o (fixedgc st) -> Core (makewhite st o).
Proof.
  intros st o C A F. apply Core_setcol; [exact C | exact A | | intros _; exact F]. intros E. inversion E. destruct (cw st); discriminate.
Qed.

(** ** Freeing a dead object *)

Lemma close_upvs_uvs : forall l st,
  heap (fold_left close_upv l st) = heap st /\
  (forall u, uvs (fold_left close_upv l st) u = if existsb (Nat.eqb u) l then Some (UClosed (uv_val st u)) else uvs st u) /\
  set_uvs (fold_left close_upv l st) (uvs st) (nextuv st) = st.
Proof.
  induction l as [|a l IH]; intros st; cbn [fold_left].
  - split; [reflexivity|]. split; [reflexivity|]. destruct st; reflexivity.
  - destruct (IH (close_upv st a)) as [H1 [H2 H3]]. split; [exact H1|]. split.
    + intros u. rewrite H2. cbn [existsb].
      assert (V : uv_val (close_upv st a) u = uv_val st u).
      { unfold uv_val. cbn [close_upv uvs heap set_uvs]. destruct (Nat.eqb_spec u a) as [->|]; [|reflexivity]. reflexivity. }
      rewrite V. cbn [close_upv uvs set_uvs]. destruct (Nat.eqb_spec u a) as [->|]; cbn [orb]; [|reflexivity]. destruct (existsb (Nat.eqb a) l); reflexivity.
    + replace (set_uvs (fold_left close_upv l (close_upv st a)) (uvs st) (nextuv st))
        with (set_uvs (set_uvs (fold_left close_upv l (close_upv st a)) (uvs (close_upv st a)) (nextuv (close_upv st a))) (uvs st) (nextuv st)) by reflexivity.
      rewrite H3. destruct st; reflexivity.
Qed.

(** The fields freeing leaves alone. *)
Definition frest (st st' : gst) : Prop := set_heap (set_uvs st' (uvs st) (nextuv st)) (heap st) = st.

Lemma frest_fields : forall st st', frest st st' ->
  nextid st' = nextid st /\ cw st' = cw st /\
  gcs st' = gcs st /\ allgc st' = allgc st /\ finobj st' = finobj st /\ tobefnz st' = tobefnz st /\
  fixedgc st' = fixedgc st /\ sweepgc st' = sweepgc st /\ twups st' = twups st /\
  mainth st' = mainth st /\ curth st' = curth st /\ registry st' = registry st /\ mts st' = mts st /\
  strcache st' = strcache st /\ memerr st' = memerr st.
Proof. intros st st' H. unfold frest in H. rewrite <- H. repeat split. Qed.

Lemma freeobj_spec : forall st o ob, heap st o = Some ob ->
  frest st (freeobj st o) /\ nextuv (freeobj st o) = nextuv st /\
  (forall x, heap (freeobj st o) x = if Nat.eqb x o then None else heap st x) /\
  (forall u, uvs (freeobj st o) u =
     match o_kind ob with KThread => if existsb (Nat.eqb u) (o_open ob) then Some (UClosed (uv_val st u)) else uvs st u | _ => uvs st u end).
Proof.
  intros st o ob H. unfold freeobj. rewrite H.
  assert (Base : frest st (set_heap st (fun x => if Nat.eqb x o then None else heap st x))) by (destruct st; reflexivity).
  destruct (o_kind ob); try (split; [exact Base|]; split; [reflexivity|]; split; reflexivity).
  destruct (close_upvs_uvs (o_open ob) st) as [H1 [H2 H3]].
  assert (N : nextuv (fold_left close_upv (o_open ob) st) = nextuv st).
  { clear. generalize (o_open ob) as l. intros l. revert st. induction l as [|a l IH]; intros st; [reflexivity|]. cbn [fold_left]. rewrite IH. reflexivity. }
  split; [|split; [exact N | split; [intros x; cbn; rewrite H1; reflexivity | exact H2]]].
  unfold frest. cbn.
  replace (set_heap _ (heap st)) with (set_heap (set_uvs (fold_left close_upv (o_open ob) st) (uvs st) (nextuv st)) (heap st)) by reflexivity.
  rewrite H3. destruct st; reflexivity.
Qed.

Lemma Core_free : forall st o, Core st -> isdead st o = true -> Core (freeobj st o).
Proof.
  intros st o C D. destruct (heap st o) as [ob|] eqn:Ho; [|unfold isdead in D; rewrite Ho in D; discriminate].
  destruct (freeobj_spec st o ob Ho) as [Fr [Fu [Hh Uv]]]. set (st' := freeobj st o) in *.
  destruct (frest_fields _ _ Fr) as [F1 [F4 [F5 [F6 [F7 [F8 [F9 [F10 [F11 [F12 [F13 [F14 [F15 [F16 F17]]]]]]]]]]]]]].
  assert (Hs : forall x xb, heap st' x = Some xb -> x <> o /\ heap st x = Some xb).
  { intros x xb H. rewrite Hh in H. destruct (Nat.eqb_spec x o); [discriminate | split; assumption]. }
  assert (A : forall x, alive st' x <-> alive st x).
  { intros x. unfold alive, isdead. rewrite F4, Hh. destruct (Nat.eqb_spec x o) as [->|]; [|reflexivity].
    split; [intros [Q _]; congruence|]. intros [_ Q]. unfold isdead in D. rewrite D in Q. discriminate. }
  (* closed upvalues *)
  assert (Uc : forall u, uvs st' u = uvs st u \/ (exists i t, uvs st u = Some (UOpen o i t) /\ uvs st' u = Some (UClosed (nth i (o_vals ob) VNil)))).
  { intros u. rewrite Uv. destruct (o_kind ob); try (left; reflexivity). destruct (existsb (Nat.eqb u) (o_open ob)) eqn:E; [|left; reflexivity].
    right. apply existsb_exists in E. destruct E as [y [I Ey]]. apply Nat.eqb_eq in Ey. subst y.
    destruct (q_open _ C o ob u Ho I) as [i [t Eu]]. exists i, t. split; [exact Eu|]. unfold uv_val. rewrite Eu, Ho. reflexivity. }
  assert (Uo : forall u th i t, uvs st' u = Some (UOpen th i t) -> uvs st u = Some (UOpen th i t) /\ th <> o).
  { intros u th i t E. destruct (Uc u) as [Q | [j [s [Q1 Q2]]]]; [|congruence]. rewrite Q in E. split; [exact E|]. intros ->.
    destruct (q_uvwf _ C u o i t E) as [b [Hb I]]. rewrite Ho in Hb. inversion Hb; subst b.
    assert (K : o_kind ob = KThread) by (apply (open_kthread ob (q_kwf _ C o ob Ho)); intros N; rewrite N in I; destruct I).
    specialize (Uv u). rewrite K in Uv. apply existsb_eqb_In in I. rewrite I in Uv. congruence. }
  assert (Ed : forall a b, edge st' a b -> edge st a b).
  { intros a b E. destruct E as [x Hx Ex | x Hx Ex | x v Hx Ex | x k Hx Ex | x Hx Ex | x u Hx I Ex | x u th i t tb Hx I Ex Ht Hn];
      apply Hs in Hx; destruct Hx as [_ Hx].
    - eapply e_meta; eassumption.
    - eapply e_val; eassumption.
    - eapply e_key; eassumption.
    - eapply e_hval; eassumption.
    - eapply e_cache; eassumption.
    - destruct (Uc u) as [Q | [i [t [Q1 Q2]]]]; [rewrite Q in Ex; eapply e_closed; eassumption|].
      rewrite Q2 in Ex. inversion Ex as [Ev]. apply (e_open st a b x u o i t ob Hx I Q1 Ho).
      clear -Ev. revert i Ev. induction (o_vals ob) as [|v l IH]; intros i Ev; destruct i; cbn in *; try discriminate; [congruence | apply IH, Ev].
    - apply Uo in Ex. destruct Ex as [Ex _]. apply Hs in Ht. destruct Ht as [_ Ht]. eapply e_open; eassumption. }
  assert (Kd : forall x, x <> o -> kind_of st' x = kind_of st x) by (intros x n; unfold kind_of; rewrite Hh; apply Nat.eqb_neq in n; rewrite n; reflexivity).
  assert (Ka : forall x, alive st x -> kind_of st' x = kind_of st x) by (intros x [_ Ax]; apply Kd; intros ->; congruence).
  pose proof C as C0. destruct C. constructor.
  - intros x xb H. apply Hs in H. apply (q_kwf0 x xb), H.
  - intros x xb m Ax H Hm. apply Hs in H. destruct H as [n H]. apply A in Ax.
    rewrite (Ka m); [apply (q_meta0 x xb m Ax H Hm)|]. apply (q_edge0 x m Ax). eapply e_meta; eassumption.
  - intros x xb H. rewrite F1. apply Hs in H. apply (q_lt0 x xb), H.
  - intros u th i t E. apply Uo in E. destruct E as [E n]. destruct (q_uvwf0 u th i t E) as [b [Hb I]]. exists b. split; [|exact I].
    rewrite Hh. apply Nat.eqb_neq in n. rewrite n. exact Hb.
  - intros x xb u H I. apply Hs in H. destruct H as [n H]. destruct (q_open0 x xb u H I) as [i [t E]]. exists i, t.
    destruct (Uc u) as [Q | [j [s [Q1 _]]]]; [congruence|]. rewrite E in Q1. inversion Q1; congruence.
  - intros x xb u H I. apply Hs in H. destruct H as [_ H]. pose proof (q_upv0 x xb u H I) as N.
    destruct (Uc u) as [-> | [j [s [_ ->]]]]; [exact N | discriminate].
  - intros u L. rewrite Fu in L. destruct (Uc u) as [-> | [j [s [Q1 _]]]]; [apply q_fresh0, L|]. rewrite (q_fresh0 u L) in Q1. discriminate.
  - intros x I. rewrite F9 in I. destruct (q_fix0 x I) as [K W].
    assert (n : x <> o). { intros ->. unfold isdead in D. unfold iswhite in W. rewrite Ho in D, W. destruct (o_col ob); discriminate. }
    rewrite (Kd x n). split; [exact K|]. unfold iswhite in *. rewrite Hh. apply Nat.eqb_neq in n. rewrite n. exact W.
  - rewrite F9, F17. exact q_mem0.
  - rewrite F13. rewrite Ka; [exact q_cur0|]. apply q_root0, r_cur. reflexivity.
  - intros a b Aa E. apply A. apply A in Aa. apply (q_edge0 a b Aa (Ed a b E)).
  - intros x R. apply A. apply (Core_roots_same st st' C0); assumption.
  - intros x I. rewrite F11 in I. apply A, q_tw0, I.
  - intros x xb H Hop. apply Hs in H. destruct H as [n H]. rewrite F11. destruct (q_twopen0 x xb H Hop) as [I | I]; [left; exact I|]. right.
    unfold isdead in *. rewrite F4, Hh. apply Nat.eqb_neq in n. rewrite n. exact I.
Qed.

Lemma typ_core : forall st, Core st -> allcw st -> typ st.
Proof.
  intros st C A. constructor.
  - apply (q_kwf _ C).
  - intros o ob m H Hm. apply (q_meta _ C o ob m); [|exact H | exact Hm]. split; [congruence | apply allcw_dead, A].
  - apply (q_lt _ C).
Qed.

(** ** Changing the contents of one object *)

Definition upv_alive (st : gst) (u : nat) : Prop :=
  (forall b, uvs st u = Some (UClosed (VObj b)) -> alive st b) /\
  (forall th i t tb b, uvs st u = Some (UOpen th i t) -> heap st th = Some tb -> nth_error (o_vals tb) i = Some (VObj b) -> alive st b).

Lemma modify_all : forall st o f,
  nextid (modify st o f) = nextid st /\ uvs (modify st o f) = uvs st /\ nextuv (modify st o f) = nextuv st /\ cw (modify st o f) = cw st /\
  gcs (modify st o f) = gcs st /\ allgc (modify st o f) = allgc st /\ finobj (modify st o f) = finobj st /\ tobefnz (modify st o f) = tobefnz st /\
  fixedgc (modify st o f) = fixedgc st /\ sweepgc (modify st o f) = sweepgc st /\ twups (modify st o f) = twups st /\
  mainth (modify st o f) = mainth st /\ curth (modify st o f) = curth st /\ registry (modify st o f) = registry st /\ mts (modify st o f) = mts st /\
  strcache (modify st o f) = strcache st /\ memerr (modify st o f) = memerr st.
Proof. intros. rewrite modify_rest. repeat split. Qed.

Record okmod (st : gst) (o : id) (ob nb : obj) : Prop := {
  m_kind : o_kind nb = o_kind ob;
  m_col : o_col nb = o_col ob;
  m_open : o_open nb = o_open ob;
  m_kwf : kwf nb;
  m_meta : forall m, o_meta nb = Some m -> o_meta ob = Some m \/ (alive st m /\ kind_of st m = Some KTable);
  m_ref : forall b, oref nb b -> oref ob b \/ alive st b;
  m_nth : forall i b, nth_error (o_vals nb) i = Some (VObj b) -> nth_error (o_vals ob) i = Some (VObj b) \/ alive st b;
  m_upv : forall u, In u (o_upv nb) -> In u (o_upv ob) \/ (uvs st u <> None /\ upv_alive st u)
}.

Lemma edge_oref : forall st a b ob, heap st a = Some ob -> oref ob b -> edge st a b.
Proof.
  intros st a b ob H [R | [R | [[v R] | [[k R] | R]]]].
  - eapply e_meta; eassumption.
  - eapply e_val; eassumption.
  - eapply e_key; eassumption.
  - eapply e_hval; eassumption.
  - eapply e_cache; eassumption.
Qed.

Lemma Core_modify : forall st o f, Core st -> (forall ob, heap st o = Some ob -> okmod st o ob (f ob)) -> Core (modify st o f).
Proof.
  intros st o f C H. destruct (heap st o) as [ob|] eqn:Ho.
  2: { assert (E : modify st o f = st) by (unfold modify; rewrite Ho; reflexivity). rewrite E. exact C. }
  specialize (H ob eq_refl). set (st' := modify st o f).
  pose proof (modify_all st o f) as FF. fold st' in FF. destruct FF as [F1 [F2 [F3 [F4 [F5 [F6 [F7 [F8 [F9 [F10 [F11 [F12 [F13 [F14 [F15 [F16 F17]]]]]]]]]]]]]]]].
  assert (Hh : forall x, heap st' x = if Nat.eqb x o then Some (f ob) else heap st x).
  { intros x. unfold st'. rewrite heap_modify, Ho. reflexivity. }
  assert (D : forall x, isdead st' x = isdead st x).
  { intros x. unfold isdead. rewrite F4, Hh. destruct (Nat.eqb_spec x o) as [->|]; [|reflexivity]. rewrite Ho, (m_col _ _ _ _ H). reflexivity. }
  assert (Kd : forall x, kind_of st' x = kind_of st x).
  { intros x. unfold kind_of. rewrite Hh. destruct (Nat.eqb_spec x o) as [->|]; [|reflexivity]. rewrite Ho, (m_kind _ _ _ _ H). reflexivity. }
  assert (Wd : forall x, iswhite st' x = iswhite st x).
  { intros x. unfold iswhite. rewrite Hh. destruct (Nat.eqb_spec x o) as [->|]; [|reflexivity]. rewrite Ho, (m_col _ _ _ _ H). reflexivity. }
  assert (A : forall x, alive st' x <-> alive st x).
  { intros x. unfold alive. rewrite D, Hh. destruct (Nat.eqb_spec x o) as [->|]; [|reflexivity]. rewrite Ho. split; intros [_ Q]; split; congruence. }
  assert (Hs : forall x xb, heap st' x = Some xb -> exists yb, heap st x = Some yb /\ o_open xb = o_open yb /\ (xb = yb \/ (x = o /\ yb = ob /\ xb = f ob))).
  { intros x xb E. rewrite Hh in E. destruct (Nat.eqb_spec x o) as [->|]; [|eauto]. inversion E; subst xb. exists ob.
    split; [exact Ho|]. split; [apply (m_open _ _ _ _ H) | right; auto]. }
  assert (NE : forall u th i t tb b, uvs st u = Some (UOpen th i t) -> heap st' th = Some tb -> nth_error (o_vals tb) i = Some (VObj b) ->
     alive st b \/ exists yb, heap st th = Some yb /\ nth_error (o_vals yb) i = Some (VObj b)).
  { intros u th i t tb b Eu Et En. destruct (Hs th tb Et) as [yb [Hy [_ [-> | [-> [-> ->]]]]]]; [right; eauto|].
    destruct (m_nth _ _ _ _ H i b En) as [Q | Q]; [right; eauto | left; exact Q]. }
  pose proof C as C0. destruct C. constructor.
  - intros x xb E. destruct (Hs x xb E) as [yb [Hy [_ [-> | [-> [-> ->]]]]]]; [apply (q_kwf0 x yb Hy) | apply (m_kwf _ _ _ _ H)].
  - intros x xb m Ax E Hm. rewrite Kd. apply A in Ax. destruct (Hs x xb E) as [yb [Hy [_ [-> | [-> [-> ->]]]]]]; [apply (q_meta0 x yb m Ax Hy Hm)|].
    destruct (m_meta _ _ _ _ H m Hm) as [Q | [_ Q]]; [apply (q_meta0 o ob m Ax Hy Q) | exact Q].
  - intros x xb E. rewrite F1. destruct (Hs x xb E) as [yb [Hy _]]. apply (q_lt0 x yb Hy).
  - intros u th i t E. rewrite F2 in E. destruct (q_uvwf0 u th i t E) as [b [Hb I]]. rewrite Hh.
    destruct (Nat.eqb_spec th o) as [->|]; [|eauto]. exists (f ob). split; [reflexivity|]. rewrite (m_open _ _ _ _ H). congruence.
  - intros x xb u E I. rewrite F2. destruct (Hs x xb E) as [yb [Hy [Oy _]]]. rewrite Oy in I. apply (q_open0 x yb u Hy I).
  - intros x xb u E I. rewrite F2. destruct (Hs x xb E) as [yb [Hy [_ [-> | [-> [-> ->]]]]]]; [apply (q_upv0 x yb u Hy I)|].
    destruct (m_upv _ _ _ _ H u I) as [Q | [Q _]]; [apply (q_upv0 o ob u Hy Q) | exact Q].
  - intros u L. rewrite F2. rewrite F3 in L. apply q_fresh0, L.
  - intros x I. rewrite F9 in I. rewrite Kd, Wd. apply q_fix0, I.
  - rewrite F9, F17. exact q_mem0.
  - rewrite F13, Kd. exact q_cur0.
  - intros a b Aa E. apply A. apply A in Aa.
    assert (Ref : forall xb, heap st' a = Some xb -> oref xb b -> alive st b).
    { intros xb E0 R. destruct (Hs a xb E0) as [yb [Hy [_ [-> | [-> [-> ->]]]]]].
      - apply (q_edge0 a b Aa). apply (edge_oref st a b yb Hy R).
      - destruct (m_ref _ _ _ _ H b R) as [Q | Q]; [|exact Q]. apply (q_edge0 o b Aa). apply (edge_oref st o b ob Ho Q). }
    assert (Upv : forall xb u, heap st' a = Some xb -> In u (o_upv xb) -> (exists yb, heap st a = Some yb /\ In u (o_upv yb)) \/ upv_alive st u).
    { intros xb u E0 I. destruct (Hs a xb E0) as [yb [Hy [_ [-> | [-> [-> ->]]]]]]; [left; eauto|].
      destruct (m_upv _ _ _ _ H u I) as [Q | [_ Q]]; [left; eauto | right; exact Q]. }
    destruct E as [x Hx Ex | x Hx Ex | x v Hx Ex | x k Hx Ex | x Hx Ex | x u Hx I Ex | x u th i t tb Hx I Ex Ht Hn].
    + apply (Ref x Hx). left. exact Ex.
    + apply (Ref x Hx). right; left. exact Ex.
    + apply (Ref x Hx). right; right; left. eauto.
    + apply (Ref x Hx). right; right; right; left. eauto.
    + apply (Ref x Hx). right; right; right; right. exact Ex.
    + rewrite F2 in Ex. destruct (Upv x u Hx I) as [[yb [Hy J]] | [Q _]]; [|apply (Q b Ex)].
      apply (q_edge0 a b Aa). eapply e_closed; eassumption.
    + rewrite F2 in Ex. destruct (NE u th i t tb b Ex Ht Hn) as [Q | [zb [Hz Nz]]]; [exact Q|].
      destruct (Upv x u Hx I) as [[yb [Hy J]] | [_ Q]]; [|apply (Q th i t zb b Ex Hz Nz)].
      apply (q_edge0 a b Aa). eapply e_open; eassumption.
  - intros x R. apply A. apply (Core_roots_same st st' C0); assumption.
  - intros x I. rewrite F11 in I. apply A, q_tw0, I.
  - intros x xb E Hop. rewrite F11, D. destruct (Hs x xb E) as [yb [Hy [Oy _]]]. rewrite Oy in Hop. apply (q_twopen0 x yb Hy Hop).
Qed.

Lemma reach_upv_alive : forall st u, Core st -> reach_upv st u -> uvs st u <> None /\ upv_alive st u.
Proof.
  intros st u C [N R]. split; [exact N|]. destruct R as [[cl [ob [Rc [Hc I]]]] | [th [ob [Rt [Ht I]]]]].
  - pose proof (alive_reach st C cl Rc) as Al. split.
    + intros b E. apply (q_edge _ C cl b Al). eapply e_closed; eassumption.
    + intros th i t tb b E Et En. apply (q_edge _ C cl b Al). eapply e_open; eassumption.
  - pose proof (alive_reach st C th Rt) as Al. destruct (q_open _ C th ob u Ht I) as [i [t E]]. split.
    + intros b Eb. congruence.
    + intros th' i' t' tb b E' Et En. rewrite E in E'. inversion E'; subst. rewrite Ht in Et. inversion Et; subst tb.
      apply (q_edge _ C th' b Al). eapply e_val; [exact Ht | apply (nth_error_In _ _ En)].
Qed.

(** ** Upvalues *)

(** Changing one existing upvalue to a closed one, and the thread's list with it. *)
Lemma Core_uvs : forall st st', Core st ->
  (forall o, heap st' o = heap st o) -> nextid st' = nextid st -> nextuv st' = nextuv st -> cw st' = cw st ->
  fixedgc st' = fixedgc st -> twups st' = twups st -> mainth st' = mainth st -> curth st' = curth st -> registry st' = registry st ->
  mts st' = mts st -> tobefnz st' = tobefnz st -> strcache st' = strcache st -> memerr st' = memerr st ->
  (forall u, uvs st' u = uvs st u \/ (exists th i t t', uvs st u = Some (UOpen th i t) /\ uvs st' u = Some (UOpen th i t')) \/
     (exists v v', uvs st u = Some (UClosed v) /\ uvs st' u = Some (UClosed v') /\ forall b, v' = VObj b -> alive st b)) ->
  Core st'.
Proof.
  intros st st' C Hh F1 F3 F4 F9 F11 F12 F13 F14 F15 F8 F16 F17 U.
  assert (D : forall x, isdead st' x = isdead st x) by (intros x; unfold isdead; rewrite F4, Hh; reflexivity).
  assert (Kd : forall x, kind_of st' x = kind_of st x) by (intros x; unfold kind_of; rewrite Hh; reflexivity).
  assert (Wd : forall x, iswhite st' x = iswhite st x) by (intros x; unfold iswhite; rewrite Hh; reflexivity).
  assert (A : forall x, alive st' x <-> alive st x) by (intros x; unfold alive; rewrite D, Hh; reflexivity).
  pose proof C as C0. destruct C. constructor.
  - intros x xb E. rewrite Hh in E. apply (q_kwf0 x xb E).
  - intros x xb m Ax E Hm. rewrite Hh in E. rewrite Kd. apply A in Ax. apply (q_meta0 x xb m Ax E Hm).
  - intros x xb E. rewrite Hh in E. rewrite F1. apply (q_lt0 x xb E).
  - intros u th i t E. rewrite Hh. destruct (U u) as [Q | [[th0 [i0 [t0 [t1 [Q1 Q2]]]]] | [v [v' [Q1 [Q2 _]]]]]].
    + apply (q_uvwf0 u th i t). congruence.
    + rewrite Q2 in E. inversion E; subst. apply (q_uvwf0 u th i t0 Q1).
    + congruence.
  - intros x xb u E I. rewrite Hh in E. destruct (q_open0 x xb u E I) as [i [t Eu]].
    destruct (U u) as [Q | [[th0 [i0 [t0 [t1 [Q1 Q2]]]]] | [v [v' [Q1 [Q2 _]]]]]]; [rewrite Q; eauto | | congruence].
    rewrite Eu in Q1. inversion Q1; subst. eauto.
  - intros x xb u E I. rewrite Hh in E. pose proof (q_upv0 x xb u E I) as N.
    destruct (U u) as [Q | [[th0 [i0 [t0 [t1 [Q1 Q2]]]]] | [v [v' [Q1 [Q2 _]]]]]]; congruence.
  - intros u L. rewrite F3 in L. pose proof (q_fresh0 u L) as N.
    destruct (U u) as [Q | [[th0 [i0 [t0 [t1 [Q1 Q2]]]]] | [v [v' [Q1 [Q2 _]]]]]]; congruence.
  - intros x I. rewrite F9 in I. rewrite Kd, Wd. apply q_fix0, I.
  - rewrite F9, F17. exact q_mem0.
  - rewrite F13, Kd. exact q_cur0.
  - intros a b Aa E. apply A. apply A in Aa.
    destruct E as [x Hx Ex | x Hx Ex | x v Hx Ex | x k Hx Ex | x Hx Ex | x u Hx I Ex | x u th i t tb Hx I Ex Ht Hn]; rewrite ?Hh in *.
    + apply (q_edge0 a b Aa). eapply e_meta; eassumption.
    + apply (q_edge0 a b Aa). eapply e_val; eassumption.
    + apply (q_edge0 a b Aa). eapply e_key; eassumption.
    + apply (q_edge0 a b Aa). eapply e_hval; eassumption.
    + apply (q_edge0 a b Aa). eapply e_cache; eassumption.
    + destruct (U u) as [Q | [[th0 [i0 [t0 [t1 [Q1 Q2]]]]] | [v [v' [Q1 [Q2 Q3]]]]]].
      * rewrite Q in Ex. apply (q_edge0 a b Aa). eapply e_closed; eassumption.
      * congruence.
      * apply Q3. congruence.
    + destruct (U u) as [Q | [[th0 [i0 [t0 [t1 [Q1 Q2]]]]] | [v [v' [Q1 [Q2 Q3]]]]]].
      * rewrite Q in Ex. apply (q_edge0 a b Aa). eapply e_open; eassumption.
      * rewrite Q2 in Ex. inversion Ex; subst. apply (q_edge0 a b Aa). eapply e_open; eassumption.
      * congruence.
  - intros x R. apply A. apply (Core_roots_same st st' C0); assumption.
  - intros x I. rewrite F11 in I. apply A, q_tw0, I.
  - intros x xb E Hop. rewrite Hh in E. rewrite F11, D. apply (q_twopen0 x xb E Hop).
Qed.

(** luaF_close: the list of the thread loses the upvalues, which become closed. *)
Lemma Core_close : forall st th us tb, Core st -> alive st th -> heap st th = Some tb -> incl us (o_open tb) ->
  Core (fold_left close_upv us (modify st th (fun b => with_open b (filter (fun u => negb (existsb (Nat.eqb u) us)) (o_open b))))).
Proof.
  intros st th us tb C Al Ht I.
  set (f := fun b => with_open b (filter (fun u => negb (existsb (Nat.eqb u) us)) (o_open b))).
  set (st1 := modify st th f). set (st' := fold_left close_upv us st1).
  pose proof (modify_all st th f) as FF. fold st1 in FF. destruct FF as [F1 [F2 [F3 [F4 [F5 [F6 [F7 [F8 [F9 [F10 [F11 [F12 [F13 [F14 [F15 [F16 F17]]]]]]]]]]]]]]]].
  pose proof (close_upvs_uvs us st1) as HH. fold st' in HH. destruct HH as [H1 [H2 H3]].
  assert (Fr : frest st1 st') by (unfold frest; rewrite H3; destruct st1; reflexivity).
  destruct (frest_fields _ _ Fr) as [G1 [G4 [G5 [G6 [G7 [G8 [G9 [G10 [G11 [G12 [G13 [G14 [G15 [G16 G17]]]]]]]]]]]]]].
  assert (NV : nextuv st' = nextuv st).
  { rewrite <- F3. unfold st'. clear. generalize st1 as s. induction us as [|a l IH]; intros s; [reflexivity|]. cbn [fold_left]. rewrite IH. reflexivity. }
  assert (Hh : forall x, heap st' x = if Nat.eqb x th then Some (f tb) else heap st x).
  { intros x. rewrite H1. unfold st1. rewrite heap_modify, Ht. reflexivity. }
  assert (D : forall x, isdead st' x = isdead st x).
  { intros x. unfold isdead. rewrite G4, F4, Hh. destruct (Nat.eqb_spec x th) as [->|]; [|reflexivity]. rewrite Ht. reflexivity. }
  assert (Kd : forall x, kind_of st' x = kind_of st x).
  { intros x. unfold kind_of. rewrite Hh. destruct (Nat.eqb_spec x th) as [->|]; [|reflexivity]. rewrite Ht. reflexivity. }
  assert (Wd : forall x, iswhite st' x = iswhite st x).
  { intros x. unfold iswhite. rewrite Hh. destruct (Nat.eqb_spec x th) as [->|]; [|reflexivity]. rewrite Ht. reflexivity. }
  assert (A : forall x, alive st' x <-> alive st x).
  { intros x. unfold alive. rewrite D, Hh. destruct (Nat.eqb_spec x th) as [->|]; [|reflexivity]. rewrite Ht. split; intros [_ Q]; split; congruence. }
  assert (Hs : forall x xb, heap st' x = Some xb -> exists yb, heap st x = Some yb /\ (xb = yb /\ x <> th \/ (x = th /\ yb = tb /\ xb = f tb))).
  { intros x xb E. rewrite Hh in E. destruct (Nat.eqb_spec x th) as [->|]; [|eauto]. inversion E; subst xb. exists tb. auto. }
  assert (U : forall u, (In u us /\ exists i t, uvs st u = Some (UOpen th i t) /\ uvs st' u = Some (UClosed (nth i (o_vals tb) VNil))) \/
                        (~ In u us /\ uvs st' u = uvs st u)).
  { intros u. rewrite H2. destruct (existsb (Nat.eqb u) us) eqn:E.
    - left. apply existsb_eqb_In in E. split; [exact E|]. destruct (q_open _ C th tb u Ht (I u E)) as [i [t Eu]]. exists i, t. split; [exact Eu|].
      unfold uv_val. rewrite F2, Eu. unfold st1. rewrite heap_modify, Nat.eqb_refl, Ht. reflexivity.
    - right. split; [|rewrite F2; reflexivity]. intros J. apply existsb_eqb_In in J. congruence. }
  assert (Ref : forall x xb yb b, heap st x = Some yb -> (xb = yb /\ x <> th \/ (x = th /\ yb = tb /\ xb = f tb)) -> oref xb b -> oref yb b).
  { intros x xb yb b _ [[-> _] | [-> [-> ->]]] R; exact R. }
  assert (Upv : forall x xb yb, heap st x = Some yb -> (xb = yb /\ x <> th \/ (x = th /\ yb = tb /\ xb = f tb)) -> o_upv xb = o_upv yb).
  { intros x xb yb _ [[-> _] | [-> [-> ->]]]; reflexivity. }
  pose proof C as C0. destruct C. constructor.
  - intros x xb E. destruct (Hs x xb E) as [yb [Hy [[-> _] | [-> [-> ->]]]]]; [apply (q_kwf0 x yb Hy)|].
    pose proof (q_kwf0 th tb Ht) as W. unfold kwf in *. cbn [f with_open o_kind o_meta o_vals o_hash o_upv o_cache o_open].
    destruct (o_kind tb); try exact W; replace (o_open tb) with (@nil nat) in * by (symmetry; tauto); exact W.
  - intros x xb m Ax E Hm. rewrite Kd. apply A in Ax. destruct (Hs x xb E) as [yb [Hy Q]].
    apply (q_meta0 x yb m Ax Hy). destruct Q as [[-> _] | [-> [-> ->]]]; exact Hm.
  - intros x xb E. rewrite G1, F1. destruct (Hs x xb E) as [yb [Hy _]]. apply (q_lt0 x yb Hy).
  - intros u t i b E. destruct (U u) as [[_ [j [s [_ Q]]]] | [Nu Q]]; [congruence|]. rewrite Q in E.
    destruct (q_uvwf0 u t i b E) as [ob [Hb J]]. rewrite Hh. destruct (Nat.eqb_spec t th) as [->|]; [|eauto].
    exists (f tb). split; [reflexivity|]. cbn. apply filter_In. split; [congruence|].
    destruct (existsb (Nat.eqb u) us) eqn:X; [|reflexivity]. apply existsb_eqb_In in X. contradiction.
  - intros x xb u E J. destruct (Hs x xb E) as [yb [Hy Q]].
    assert (Jy : In u (o_open yb) /\ (x = th -> ~ In u us)).
    { destruct Q as [[-> n] | [-> [-> ->]]]; [split; [exact J | congruence]|]. cbn in J. apply filter_In in J. destruct J as [J X]. split; [exact J|].
      intros _ K. apply existsb_eqb_In in K. rewrite K in X. discriminate. }
    destruct Jy as [Jy Nu]. destruct (q_open0 x yb u Hy Jy) as [i [t Eu]].
    destruct (U u) as [[Iu [j [s [Q1 _]]]] | [_ Q']]; [|rewrite Q'; eauto]. exfalso. rewrite Eu in Q1. inversion Q1; subst. apply (Nu eq_refl Iu).
  - intros x xb u E J. destruct (Hs x xb E) as [yb [Hy Q]]. rewrite (Upv x xb yb Hy Q) in J. pose proof (q_upv0 x yb u Hy J) as N.
    destruct (U u) as [[_ [j [s [_ ->]]]] | [_ ->]]; [discriminate | exact N].
  - intros u L. rewrite NV in L. pose proof (q_fresh0 u L) as N. destruct (U u) as [[_ [j [s [Q _]]]] | [_ ->]]; [congruence | exact N].
  - intros x J. rewrite G9, F9 in J. rewrite Kd, Wd. apply q_fix0, J.
  - rewrite G9, F9, G17, F17. exact q_mem0.
  - rewrite G13, F13, Kd. exact q_cur0.
  - intros a b Aa E. apply A. apply A in Aa.
    destruct E as [x Hx Ex | x Hx Ex | x v Hx Ex | x k Hx Ex | x Hx Ex | x u Hx J Ex | x u t i s tb' Hx J Ex Ht' Hn];
      destruct (Hs a x Hx) as [yb [Hy Q]].
    + apply (q_edge0 a b Aa), (edge_oref st a b yb Hy), (Ref a x yb b Hy Q). left. exact Ex.
    + apply (q_edge0 a b Aa), (edge_oref st a b yb Hy), (Ref a x yb b Hy Q). right; left. exact Ex.
    + apply (q_edge0 a b Aa), (edge_oref st a b yb Hy), (Ref a x yb b Hy Q). right; right; left. eauto.
    + apply (q_edge0 a b Aa), (edge_oref st a b yb Hy), (Ref a x yb b Hy Q). right; right; right; left. eauto.
    + apply (q_edge0 a b Aa), (edge_oref st a b yb Hy), (Ref a x yb b Hy Q). right; right; right; right. exact Ex.
    + rewrite (Upv a x yb Hy Q) in J. destruct (U u) as [[_ [j [s [Q1 Q2]]]] | [_ Qe]].
      * rewrite Q2 in Ex. inversion Ex as [Ev]. apply (q_edge0 th b Al). eapply e_val; [exact Ht|].
        rewrite <- Ev. destruct (Nat.lt_ge_cases j (length (o_vals tb))) as [L | L]; [apply nth_In, L|].
        rewrite nth_overflow in Ev by exact L. discriminate.
      * rewrite Qe in Ex. apply (q_edge0 a b Aa). eapply e_closed; eassumption.
    + rewrite (Upv a x yb Hy Q) in J. destruct (U u) as [[_ [j [s' [Q1 Q2]]]] | [_ Qe]]; [congruence|]. rewrite Qe in Ex.
      apply (q_edge0 a b Aa). destruct (Hs t tb' Ht') as [zb [Hz Qz]]. apply (e_open st a b yb u t i s zb Hy J Ex Hz).
      destruct Qz as [[-> _] | [-> [-> ->]]]; exact Hn.
  - intros x R. apply A. apply (Core_roots_same st st' C0); congruence.
  - intros x J. rewrite G11, F11 in J. apply A, q_tw0, J.
  - intros x xb E Hop. rewrite G11, F11, D. destruct (Hs x xb E) as [yb [Hy Q]]. apply (q_twopen0 x yb Hy).
    destruct Q as [[-> _] | [-> [-> ->]]]; [exact Hop|]. intros N. apply Hop. cbn. rewrite N. reflexivity.
Qed.

Lemma Core_findupval : forall st th i, Core st -> alive st th -> kind_of st th = Some KThread -> Core (findupval st th i).
Proof.
  intros st th i C Al Kt. destruct (alive_kind _ _ _ Kt) as [tb [Ht Kb]]. unfold findupval.
  set (u := nextuv st).
  set (st1 := set_uvs st (fun x => if Nat.eqb x u then Some (UOpen th i true) else uvs st x) (S u)).
  set (f := fun b => with_open b (u :: o_open b)). set (st2 := modify st1 th f).
  pose proof (modify_all st1 th f) as FF. fold st2 in FF. destruct FF as [F1 [F2 [F3 [F4 [F5 [F6 [F7 [F8 [F9 [F10 [F11 [F12 [F13 [F14 [F15 [F16 F17]]]]]]]]]]]]]]]].
  set (st3 := if existsb (Nat.eqb th) (twups st2) then st2 else set_twups st2 (th :: twups st2)).
  assert (E3 : heap st3 = heap st2 /\ uvs st3 = uvs st2 /\ nextid st3 = nextid st2 /\ nextuv st3 = nextuv st2 /\ cw st3 = cw st2 /\ fixedgc st3 = fixedgc st2 /\
     mainth st3 = mainth st2 /\ curth st3 = curth st2 /\ registry st3 = registry st2 /\ mts st3 = mts st2 /\ tobefnz st3 = tobefnz st2 /\
     strcache st3 = strcache st2 /\ memerr st3 = memerr st2).
  { unfold st3. destruct (existsb (Nat.eqb th) (twups st2)); repeat split. }
  destruct E3 as [G1 [G2 [G3 [G4 [G5 [G6 [G7 [G8 [G9 [G10 [G11 [G12 G13]]]]]]]]]]]].
  assert (Tw : forall x, In x (twups st3) <-> x = th \/ In x (twups st)).
  { intros x. unfold st3. destruct (existsb (Nat.eqb th) (twups st2)) eqn:E.
    - apply existsb_eqb_In in E. rewrite F11 in *. cbn in *. split; [auto | intros [-> | J]; assumption].
    - cbn. rewrite F11. cbn. split; intros [J | J]; auto. }
  assert (Hh : forall x, heap st3 x = if Nat.eqb x th then Some (f tb) else heap st x).
  { intros x. rewrite G1. unfold st2. rewrite heap_modify. cbn. rewrite Ht. reflexivity. }
  assert (Uu : forall x, uvs st3 x = if Nat.eqb x u then Some (UOpen th i true) else uvs st x) by (intros x; rewrite G2, F2; reflexivity).
  assert (D : forall x, isdead st3 x = isdead st x).
  { intros x. unfold isdead. rewrite G5, F4, Hh. destruct (Nat.eqb_spec x th) as [->|]; [|reflexivity]. rewrite Ht. reflexivity. }
  assert (Kd : forall x, kind_of st3 x = kind_of st x).
  { intros x. unfold kind_of. rewrite Hh. destruct (Nat.eqb_spec x th) as [->|]; [|reflexivity]. rewrite Ht. reflexivity. }
  assert (Wd : forall x, iswhite st3 x = iswhite st x).
  { intros x. unfold iswhite. rewrite Hh. destruct (Nat.eqb_spec x th) as [->|]; [|reflexivity]. rewrite Ht. reflexivity. }
  assert (A : forall x, alive st3 x <-> alive st x).
  { intros x. unfold alive. rewrite D, Hh. destruct (Nat.eqb_spec x th) as [->|]; [|reflexivity]. rewrite Ht. split; intros [_ Q]; split; congruence. }
  assert (Hs : forall x xb, heap st3 x = Some xb -> exists yb, heap st x = Some yb /\ (xb = yb /\ x <> th \/ (x = th /\ yb = tb /\ xb = f tb))).
  { intros x xb E. rewrite Hh in E. destruct (Nat.eqb_spec x th) as [->|]; [|eauto]. inversion E; subst xb. exists tb. auto. }
  assert (Nu : uvs st u = None) by (apply (q_fresh _ C); apply le_n).
  assert (Upv : forall x xb yb, heap st x = Some yb -> (xb = yb /\ x <> th \/ (x = th /\ yb = tb /\ xb = f tb)) -> o_upv xb = o_upv yb).
  { intros x xb yb _ [[-> _] | [-> [-> ->]]]; reflexivity. }
  assert (Nup : forall x yb, heap st x = Some yb -> ~ In u (o_upv yb)) by (intros x yb Hy J; apply (q_upv _ C x yb u Hy J Nu)).
  pose proof C as C0. destruct C. constructor.
  - intros x xb E. destruct (Hs x xb E) as [yb [Hy [[-> _] | [-> [-> ->]]]]]; [apply (q_kwf0 x yb Hy)|].
    pose proof (q_kwf0 th tb Ht) as W. unfold kwf in *. cbn [f with_open o_kind o_meta o_vals o_hash o_upv o_cache o_open]. rewrite Kb in *. exact W.
  - intros x xb m Ax E Hm. rewrite Kd. apply A in Ax. destruct (Hs x xb E) as [yb [Hy Q]].
    apply (q_meta0 x yb m Ax Hy). destruct Q as [[-> _] | [-> [-> ->]]]; exact Hm.
  - intros x xb E. rewrite G3, F1. destruct (Hs x xb E) as [yb [Hy _]]. apply (q_lt0 x yb Hy).
  - intros w t j b E. rewrite Uu in E. rewrite Hh. destruct (Nat.eqb_spec w u) as [->|].
    + inversion E; subst. rewrite Nat.eqb_refl. exists (f tb). split; [reflexivity | left; reflexivity].
    + destruct (q_uvwf0 w t j b E) as [ob [Hb J]]. destruct (Nat.eqb_spec t th) as [->|]; [|eauto]. exists (f tb). split; [reflexivity|].
      right. congruence.
  - intros x xb w E J. rewrite Uu. destruct (Hs x xb E) as [yb [Hy Q]]. destruct (Nat.eqb_spec w u) as [->|].
    + exists i, true. f_equal. f_equal. destruct Q as [[-> n] | [-> _]]; [|reflexivity]. exfalso.
      destruct (q_open0 x yb u Hy J) as [j [t Eu]]. congruence.
    + apply (q_open0 x yb w Hy). destruct Q as [[-> _] | [-> [-> ->]]]; [exact J|]. cbn in J. destruct J; [congruence | assumption].
  - intros x xb w E J. rewrite Uu. destruct (Nat.eqb_spec w u) as [->|]; [discriminate|]. destruct (Hs x xb E) as [yb [Hy Q]].
    rewrite (Upv x xb yb Hy Q) in J. apply (q_upv0 x yb w Hy J).
  - intros w L. rewrite G4, F3 in L. cbn in L. rewrite Uu. destruct (Nat.eqb_spec w u) as [->|]; [lia|]. apply q_fresh0. unfold u in L. lia.
  - intros x J. rewrite G6, F9 in J. rewrite Kd, Wd. apply q_fix0, J.
  - rewrite G6, F9, G13, F17. exact q_mem0.
  - rewrite G8, F13, Kd. exact q_cur0.
  - intros a b Aa E. apply A. apply A in Aa. apply (q_edge0 a b Aa).
    destruct E as [x Hx Ex | x Hx Ex | x v Hx Ex | x k Hx Ex | x Hx Ex | x w Hx J Ex | x w t j s tb' Hx J Ex Ht' Hn];
      destruct (Hs a x Hx) as [yb [Hy Q]].
    + apply (e_meta st a b yb Hy). destruct Q as [[-> _] | [-> [-> ->]]]; exact Ex.
    + apply (e_val st a b yb Hy). destruct Q as [[-> _] | [-> [-> ->]]]; exact Ex.
    + apply (e_key st a b yb v Hy). destruct Q as [[-> _] | [-> [-> ->]]]; exact Ex.
    + apply (e_hval st a b yb k Hy). destruct Q as [[-> _] | [-> [-> ->]]]; exact Ex.
    + apply (e_cache st a b yb Hy). destruct Q as [[-> _] | [-> [-> ->]]]; exact Ex.
    + rewrite (Upv a x yb Hy Q) in J. rewrite Uu in Ex. destruct (Nat.eqb_spec w u) as [->|]; [discriminate|]. eapply e_closed; eassumption.
    + rewrite (Upv a x yb Hy Q) in J. rewrite Uu in Ex. destruct (Nat.eqb_spec w u) as [->|]; [exfalso; apply (Nup a yb Hy J)|].
      destruct (Hs t tb' Ht') as [zb [Hz Qz]]. apply (e_open st a b yb w t j s zb Hy J Ex Hz).
      destruct Qz as [[-> _] | [-> [-> ->]]]; exact Hn.
  - intros x R. apply A. apply (Core_roots_same st st3 C0); cbn in *; congruence.
  - intros x J. apply A. apply Tw in J. destruct J as [-> | J]; [exact Al | apply q_tw0, J].
  - intros x xb E Hop. rewrite D. destruct (Hs x xb E) as [yb [Hy Q]]. destruct Q as [[-> n] | [-> _]].
    + destruct (q_twopen0 x yb Hy Hop) as [J | J]; [left; apply Tw; right; exact J | right; exact J].
    + left. apply Tw. left. reflexivity.
Qed.

(** ** Allocation *)
Definition alloc (st : gst) (k : kind) (vs : list val) (us : list nat) : gst :=
  let o := nextid st in
  let st := set_heap st (fun x => if Nat.eqb x o then Some (blank k (cw st) vs us) else heap st x) in
  let st := set_nextid st (S o) in
  set_objs st (o :: allgc st) (finobj st) (tobefnz st).

Lemma newobj_alloc : forall st k vs us, newobj st k vs us = push (alloc st k vs us) (VObj (nextid st)).
Proof. reflexivity. Qed.

Lemma Core_alloc : forall st k vs us, Core st -> kwf (blank k (cw st) vs us) ->
  (forall b, In (VObj b) vs -> alive st b) -> (forall u, In u us -> uvs st u <> None /\ upv_alive st u) ->
  Core (alloc st k vs us) /\ alive (alloc st k vs us) (nextid st).
Proof.
  intros st k vs us C W Av Au. set (o := nextid st). set (nb := blank k (cw st) vs us). set (st' := alloc st k vs us).
  assert (Hh : forall x, heap st' x = if Nat.eqb x o then Some nb else heap st x) by reflexivity.
  assert (No : heap st o = None).
  { destruct (heap st o) as [ob|] eqn:E; [|reflexivity]. pose proof (q_lt _ C o ob E). unfold o in *. lia. }
  assert (Ds : forall x, x <> o -> isdead st' x = isdead st x).
  { intros x n. unfold isdead. rewrite Hh. apply Nat.eqb_neq in n. rewrite n. reflexivity. }
  assert (Do : isdead st' o = false).
  { unfold isdead. rewrite Hh, Nat.eqb_refl. cbn. destruct (cw st); reflexivity. }
  assert (A1 : forall x, alive st x -> alive st' x).
  { intros x [Q1 Q2]. assert (n : x <> o) by congruence. split; [rewrite Hh; apply Nat.eqb_neq in n; rewrite n; exact Q1 | rewrite (Ds x n); exact Q2]. }
  assert (A2 : forall x, alive st' x -> x <> o -> alive st x).
  { intros x [Q1 Q2] n. rewrite (Ds x n) in Q2. rewrite Hh in Q1. apply Nat.eqb_neq in n. rewrite n in Q1. split; assumption. }
  assert (Ao : alive st' o) by (split; [rewrite Hh, Nat.eqb_refl; discriminate | exact Do]).
  assert (Hs : forall x xb, heap st' x = Some xb -> (x <> o /\ heap st x = Some xb) \/ (x = o /\ xb = nb)).
  { intros x xb E. rewrite Hh in E. destruct (Nat.eqb_spec x o); [right; split; congruence | left; split; assumption]. }
  assert (Kd : forall x, x <> o -> kind_of st' x = kind_of st x) by (intros x n; unfold kind_of; rewrite Hh; apply Nat.eqb_neq in n; rewrite n; reflexivity).
  assert (Ka : forall x kk, kind_of st x = Some kk -> x <> o) by (intros x kk E ->; unfold kind_of in E; rewrite No in E; discriminate).
  split; [|exact Ao]. pose proof C as C0. destruct C. constructor.
  - intros x xb E. destruct (Hs x xb E) as [[n E'] | [-> ->]]; [apply (q_kwf0 x xb E') | exact W].
  - intros x xb m Ax E Hm. destruct (Hs x xb E) as [[n E'] | [-> ->]]; [|discriminate].
    pose proof (q_meta0 x xb m (A2 x Ax n) E' Hm) as Q. rewrite (Kd m (Ka m _ Q)). exact Q.
  - intros x xb E. change (nextid st') with (S o). destruct (Hs x xb E) as [[n E'] | [-> ->]]; [pose proof (q_lt0 x xb E'); unfold o; lia | lia].
  - intros u th i t E. destruct (q_uvwf0 u th i t E) as [b [Hb I]]. exists b. split; [|exact I]. rewrite Hh.
    destruct (Nat.eqb_spec th o) as [->|]; [congruence | exact Hb].
  - intros x xb u E I. destruct (Hs x xb E) as [[n E'] | [-> ->]]; [apply (q_open0 x xb u E' I) | destruct I].
  - intros x xb u E I. destruct (Hs x xb E) as [[n E'] | [-> ->]]; [apply (q_upv0 x xb u E' I) | apply (Au u I)].
  - exact q_fresh0.
  - intros x I. destruct (q_fix0 x I) as [K Wx]. pose proof (Ka x _ K) as n. rewrite (Kd x n). split; [exact K|].
    unfold iswhite in *. rewrite Hh. apply Nat.eqb_neq in n. rewrite n. exact Wx.
  - exact q_mem0.
  - change (curth st') with (curth st). rewrite (Kd _ (Ka _ _ q_cur0)). exact q_cur0.
  - intros a b Aa E.
    assert (Old : forall x, heap st' a = Some x -> a <> o -> edge st a b -> alive st' b).
    { intros x _ n Q. apply A1. apply (q_edge0 a b (A2 a Aa n) Q). }
    destruct E as [x Hx Ex | x Hx Ex | x v Hx Ex | x kk Hx Ex | x Hx Ex | x u Hx J Ex | x u t i s tb Hx J Ex Ht Hn];
      destruct (Hs a x Hx) as [[n E'] | [-> ->]].
    + apply (Old x Hx n). eapply e_meta; eassumption.
    + discriminate.
    + apply (Old x Hx n). eapply e_val; eassumption.
    + apply A1, Av. exact Ex.
    + apply (Old x Hx n). eapply e_key; eassumption.
    + destruct Ex.
    + apply (Old x Hx n). eapply e_hval; eassumption.
    + destruct Ex.
    + apply (Old x Hx n). eapply e_cache; eassumption.
    + discriminate.
    + apply (Old x Hx n). eapply e_closed; eassumption.
    + apply A1. apply (Au u J). exact Ex.
    + apply (Old x Hx n). destruct (Hs t tb Ht) as [[nt Et] | [-> ->]]; [eapply e_open; eassumption|].
      exfalso. destruct (q_uvwf0 u o i s Ex) as [zb [Hz _]]. congruence.
    + apply A1. destruct (Hs t tb Ht) as [[nt Et] | [-> ->]]; [apply (proj2 (proj2 (Au u J)) t i s tb b Ex Et Hn)|].
      exfalso. destruct (q_uvwf0 u o i s Ex) as [zb [Hz _]]. congruence.
  - intros x R. apply A1. apply (Core_roots_same st st' C0); try reflexivity. exact R.
  - intros x I. apply A1, q_tw0, I.
  - intros x xb E Hop. destruct (Hs x xb E) as [[n E'] | [-> ->]]; [rewrite (Ds x n); apply (q_twopen0 x xb E' Hop) | exfalso; apply Hop; reflexivity].
Qed.
