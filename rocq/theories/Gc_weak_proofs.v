(** Weak tables keep nothing alive through their weak references. *)
From Coq Require Import ZArith List Bool Arith Lia.
From Verif Require Import Base Gc_model Gc_spec Gc_facts Gc_tri Gc_fin Gc_core Gc_mark Gc_sweep Gc_inv Gc_mut Gc_upv Gc_exec Gc_dead Gc_deadm Gc_hn Gc_deads Gc_free_spec Gc_free_proofs Gc_weak_spec.
Import ListNotations.
Local Open Scope nat_scope.

(** The objects to be freed. *)
Definition Wset (st : gst) (x : id) : Prop := ~ maybe_held st x /\ exists k, kind_of st x = Some k /\ k <> KStr.

Lemma weakmode_spec : forall st ob, weakmode st ob = (weakkeys st ob, weakvals st ob).
Proof.
  intros st ob. unfold weakmode, weakkeys, weakvals, wmode. destruct (o_meta ob) as [m|]; [|reflexivity].
  destruct (heap st m) as [mb|]; [|reflexivity]. destruct (o_mode mb); reflexivity.
Qed.
Lemma out_strong : forall st a ob, heap st a = Some ob -> o_kind ob <> KStr -> ~ Wset st a -> ~ ~ strong o_vals (base st) st a.
Proof. intros st a ob H K N S. apply N. split; [exact S|]. exists (o_kind ob). split; [unfold kind_of; rewrite H; reflexivity | exact K]. Qed.
Lemma weak_upv : forall st a ob u b, strong o_vals (base st) st a -> heap st a = Some ob -> In u (o_upv ob) -> uv_val st u = VObj b -> strong o_vals (base st) st b.
Proof.
  intros st a ob u b S Ha I V. unfold uv_val in V. destruct (uvs st u) as [[th i t|v]|] eqn:U; [|subst v; exact (s_closed _ _ _ _ ob u b S Ha I U)|discriminate].
  destruct (heap st th) as [tb|] eqn:T; [|discriminate].
  apply (s_open _ _ _ _ ob u th i t tb b S Ha I U T). destruct (nth_error (o_vals tb) i) as [w|] eqn:N.
  - rewrite (nth_error_nth _ _ _ N) in V. congruence.
  - apply nth_error_None in N. rewrite nth_overflow in V by exact N. discriminate.
Qed.
Lemma weak_cont : forall st a ob, Core st -> heap st a = Some ob -> ~ Wset st a -> cont (Wset st) false st ob.
Proof.
  intros st a ob C Ha N.
  destruct (kind_dec (Some (o_kind ob)) (Some KStr)) as [K|K].
  { assert (Ka : kind_of st a = Some KStr) by (unfold kind_of; rewrite Ha; exact K).
    assert (E : forall b, ~ edge st a b) by (intros b; exact (str_noedge st a b (q_kwf _ C) Ka)).
    injection K as K. split; [intros m E1; exfalso; exact (E m (e_meta _ _ _ ob Ha E1))|]. split.
    - unfold strongc. rewrite K. intros b I. exfalso. exact (E b (e_val _ _ _ ob Ha I)).
    - intros s Ks _ [_ [k [Kk Nk]]]. congruence. }
  assert (K' : o_kind ob <> KStr) by congruence. assert (S := out_strong st a ob Ha K' N). clear K K' N.
  assert (Vs : (o_kind ob = KTable -> weakvals st ob = false) -> okvals (Wset st) ob).
  { intros W b I [Nb _]. apply S. intros Sa. apply Nb. exact (s_val _ _ _ a ob b Sa Ha I W). }
  assert (Ks : forall k v, weakkeys st ob = false -> In (k, v) (o_hash ob) -> v <> VNil -> okk (Wset st) k).
  { intros k v W I Nv b -> [Nb _]. apply S. intros Sa. apply Nb. exact (s_key _ _ _ a ob b v Sa Ha I Nv W). }
  assert (Hs : forall k v, weakvals st ob = false -> In (k, v) (o_hash ob) -> okk (Wset st) k -> okv (Wset st) v).
  { intros k v W I Ok b -> [Nb _]. apply S. intros Sa.
    assert (X : ~ ~ (forall x kx, k = KyObj x -> kind_of st x = Some kx -> kx <> KStr -> strong o_vals (base st) st x)).
    { destruct k as [n|x|n]; [intros Z; apply Z; intros; discriminate | | intros Z; apply Z; intros; discriminate].
      destruct (kind_of st x) as [kx|] eqn:Kx; [|intros Z; apply Z; intros x' kx E1 E2; injection E1 as <-; congruence].
      destruct (kind_dec (Some kx) (Some KStr)) as [E|E]; [intros Z; apply Z; intros x' kx' E1 E2; injection E1 as <-; congruence|].
      intros Z. apply (Ok x eq_refl). split; [|exists kx; split; [exact Kx | congruence]].
      intros Sx. apply Z. intros x' kx' E1 _ _. injection E1 as <-. exact Sx. }
    apply X. intros Y. apply Nb. exact (s_hval _ _ _ a ob k b Sa Ha I W (fun _ => Y)). }
  split; [intros m Em [Nm _]; apply S; intros Sa; apply Nm; exact (s_meta _ _ _ a ob m Sa Ha Em)|]. split.
  - unfold strongc. destruct (o_kind ob) eqn:Ko; try (apply Vs; discriminate).
    rewrite weakmode_spec. destruct (weakkeys st ob) eqn:Wk, (weakvals st ob) eqn:Wv; [exact Logic.I | | |].
    + split; [apply Vs; reflexivity|]. intros k v I _. exact (Hs k v eq_refl I).
    + intros k v I Nv. exact (Ks k v eq_refl I Nv).
    + split; [apply Vs; reflexivity|]. intros k v I Nv. split; [exact (Ks k v eq_refl I Nv)|]. exact (Hs k v eq_refl I (Ks k v eq_refl I Nv)).
  - intros s Kst _ [_ [k [Kk Nk]]]. congruence.
Qed.
Lemma weak_start : forall st, Core st -> Gc_dead.Q (Wset st) false (set_lists st [] [] [] [] []).
Proof.
  intros st C. constructor.
  - intros x ob Hx N. exact (weak_cont st x ob C Hx N).
  - intros x ob u Hx N I b V [Nb Kb]. cbn in Hx. change (uv_val st u = VObj b) in V.
    destruct (kind_dec (Some (o_kind ob)) (Some KStr)) as [K|K].
    + assert (Ka : kind_of st x = Some KStr) by (unfold kind_of; rewrite Hx; exact K).
      assert (E : forall b, ~ edge st x b) by (intros y; exact (str_noedge st x y (q_kwf _ C) Ka)).
      destruct I as [I|I]; [exact (E b (uv_edge st x ob u b Hx I V))|].
      destruct (q_open _ C x ob u Hx I) as (i & t & U). unfold uv_val in V. rewrite U, Hx in V.
      apply (E b), (e_val _ _ _ ob Hx). destruct (nth_in_or_default i (o_vals ob) VNil) as [J|J]; congruence.
    + assert (K' : o_kind ob <> KStr) by congruence. apply (out_strong st x ob Hx K' N). intros S. apply Nb.
      destruct I as [I|I]; [exact (weak_upv st x ob u b S Hx I V)|].
      destruct (q_open _ C x ob u Hx I) as (i & t & U). unfold uv_val in V. rewrite U, Hx in V.
      apply (s_val _ _ _ x ob b S Hx); [destruct (nth_in_or_default i (o_vals ob) VNil) as [J|J]; congruence|].
      intros Kt. exfalso. assert (Kt' := open_kthread ob (q_kwf _ C x ob Hx) ltac:(intros Z; rewrite Z in I; destruct I)). congruence.
  - intros u th i U b V [Nb _]. apply Nb, s_root. change (uvs st u = Some (UOpen th i true)) in U. change (uv_val st u = VObj b) in V.
    unfold uv_val in V. rewrite U in V. destruct (heap st th) as [tb|] eqn:T; [|discriminate].
    apply (b_touch st b u th i tb U T). destruct (nth_error (o_vals tb) i) as [w|] eqn:Nn; [rewrite (nth_error_nth _ _ _ Nn) in V; congruence|].
    apply nth_error_None in Nn. rewrite nth_overflow in V by exact Nn. discriminate.
  - intros x R [Nx _]. apply Nx, s_root, b_root. refine (root_eq _ _ _ _ _ _ _ _ _ _ _ R); reflexivity.
  - intros x I [Nx _]. apply Nx, s_root, b_fin, I.
  - intros x [].
  - intros x [].
Qed.

(** ** The cycle *)
Section weakd.
Variable D : id -> Prop.
Definition Mw (st : gst) : Prop := (gcs st = GCSpropagate \/ gcs st = GCSenteratomic) /\ Gc_dead.M D false st.
Definition Ww (st : gst) : Prop := gcs st = GCSswpallgc /\ forall x, D x -> x < nextid st /\ Deadx st x.
Definition Pw (st : gst) : Prop := Mw st \/ Ww st \/ Gn D st.
Lemma entersweep_Ww : forall st, Core st -> Lists st -> (forall x, D x -> isdead st x = true /\ In x (allgc st) /\ x < nextid st) -> Ww (entersweep st).
Proof.
  intros st C L A. unfold entersweep. set (s0 := set_gcs st GCSswpallgc).
  assert (C0 : Core s0) by (apply (Core_lists st s0 C); reflexivity).
  assert (L0 : Lists s0) by (apply (Lists_shape st s0 L), shape_same; reflexivity).
  destruct (sweeptolive_ok (allgc s0) s0 C0 (proj1 (NoDup_lists s0 L0)) (sweepable_allgc s0 (allgc s0) L0 (incl_refl _))) as [S E0].
  destruct (sweeptolive s0 (allgc s0)) as [[s kept] rest]. cbn [fst snd] in *.
  destruct (frest_fields _ _ (proj1 (w_rest _ _ _ _ _ S))) as [Hn [Hc [Hg [Ha [Hf [Ht [Hx _]]]]]]].
  split; [cbn; rewrite Hg; reflexivity|].
  intros x Dx. destruct (A x Dx) as [A1 [A2 A3]]. split; [cbn; rewrite Hn; exact A3|].
  apply (swept_Dead D s0 PHead s (allgc s0) kept rest [] L0 S eq_refl x Dx A3 A1 A2).
Qed.
Lemma Ww_sweepstep : forall st, Core st -> Lists st -> Ww st -> Ww (sweepstep st GCSswpfinobj (Some PHead)) \/ Gn D (sweepstep st GCSswpfinobj (Some PHead)).
Proof.
  intros st C L [G A]. unfold sweepstep. destruct (sweepgc st) as [p|] eqn:P.
  - left. unfold swlist. rewrite G. assert (Sp := split_ptr_app p (allgc st)). destruct (split_ptr p (allgc st)) as [pre suf] eqn:Es. cbn in Sp.
    destruct (NoDup_lists st L) as [Nd _].
    assert (Ns : NoDup suf) by (rewrite <- Sp in Nd; apply NoDup_split in Nd; tauto).
    assert (W := sweeplist_ok suf GCSWEEPMAX st C Ns (sweepable_allgc st suf L ltac:(intros y J; rewrite <- Sp; apply in_or_app; auto))). cbv zeta in W.
    destruct (sweeplist GCSWEEPMAX st suf) as [[s kept] rest]. cbn [fst snd] in W.
    destruct (frest_fields _ _ (proj1 (w_rest _ _ _ _ _ W))) as [Hn [Hc [Hg [Ha [Hf [Ht [Hx _]]]]]]].
    unfold set_swlist. rewrite Hg, G. split; [cbn; congruence|].
    intros x Dx. destruct (A x Dx) as [A1 [A2|[A2 A3]]]; (split; [cbn; rewrite Hn; exact A1|]).
    * left. cbn. destruct (in_dec Nat.eq_dec x suf) as [I|I].
      -- exfalso. assert (J : In x (objs st)) by (apply in_objs; left; rewrite <- Sp; apply in_or_app; auto). apply (l_heap _ L) in J. congruence.
      -- rewrite (w_out _ _ _ _ _ W _ I). exact A2.
    * unfold behind in A3. rewrite P, Es in A3. exact (swept_Dead D st p s suf kept rest pre L W Es x Dx A1 A2 A3 _ _).
  - right. intros x Dx. destruct (A x Dx) as [A1 [A2|[A2 A3]]]; [split; assumption|]. unfold behind in A3. rewrite P in A3. destruct A3.
Qed.
Lemma gstep_Pw : forall st em, Inv st -> Pw st -> Pw (step st (GStep em)).
Proof.
  intros st em Iv P. pose proof Iv as [C [L Ph]]. destruct P as [P|[P|P]].
  - pose proof P as [G Mm]. cbn [step]. unfold singlestep.
    destruct G as [G|G]; rewrite G; unfold Phase in Ph; rewrite G in Ph.
    + left. destruct (gray st) as [|g0 gl] eqn:Eg.
      * split; [right; reflexivity|]. apply (M_KQ D false st); [exact Mm | apply Q_set_gcs, Mm].
      * destruct (propagate_ok st C L Ph G ltac:(congruence)) as [_ [_ [_ G']]].
        split; [left; exact G'|]. apply (M_KQ D false st); [exact Mm | apply Q_propagatemark, Mm].
    + right; left. destruct (atomic_ok st C L Ph) as [Ca La]. assert (K := Q_atomic D false st Mm).
      apply entersweep_Ww; [exact Ca | exact La|]. intros x Dx.
      assert (Wx := proj2 Mm x Dx). unfold iswhite in Wx. destruct (heap st x) as [ob|] eqn:Hx; [|discriminate].
      assert (Ex := proj1 (proj2 K) x Dx). rewrite Hx in Ex. destruct (heap (atomic st) x) as [ob'|] eqn:Hx'; [|discriminate Ex].
      assert (Ec : o_col ob' = o_col ob) by (cbn in Ex; congruence). split; [|split].
      * unfold isdead. rewrite Hx', Ec, cw_atomic. destruct (o_col ob) as [w| |] eqn:Ew; try discriminate.
        rewrite (mk_cw _ _ Ph x ob w Hx Ew). destruct (cw st); reflexivity.
      * assert (J : In x (objs (atomic st))) by (apply (l_heap _ La); congruence). apply in_objs in J.
        destruct J as [J|[J|[J|J]]]; [exact J | exfalso; exact (d_fin _ _ _ (proj1 K) _ J Dx) | exfalso; apply (d_root _ _ _ (proj1 K) x); [apply r_fin, J | exact Dx] | exfalso; apply (d_root _ _ _ (proj1 K) x); [apply r_fixed, J | exact Dx]].
      * exact (q_lt _ Ca _ _ Hx').
  - pose proof P as [G _]. cbn [step]. unfold singlestep. rewrite G. right. destruct (Ww_sweepstep st C L P) as [S|S]; [left | right]; exact S.
  - right; right. intros x Dx. destruct (P x Dx) as [P1 P2]. destruct (step_none st (GStep em) x P2 P1); split; assumption.
Qed.
Lemma gsteps_Pw : forall n st, Inv st -> Pw st -> Pw (gsteps n st).
Proof.
  induction n as [|n IH]; intros st Iv P; [exact P|]. cbn [gsteps]. apply IH; [apply step_inv; [exact Iv | exact Logic.I | exact Logic.I] | apply gstep_Pw; assumption].
Qed.
End weakd.

Lemma weak_Mw : forall st em, Inv st -> gcs st = GCSpause -> Mw (Wset st) (step st (GStep em)).
Proof.
  intros st em [C [L P]] G. cbn [step]. unfold singlestep. rewrite G. unfold Phase in P. rewrite G in P.
  assert (K := Q_restart (Wset st) false _ (weak_start st C)).
  change (restartcollection (set_lists st [] [] [] [] [])) with (restartcollection st) in K.
  split; [left; reflexivity|]. split; [apply (Q_set_gcs (Wset st) false _ GCSpropagate (proj1 K))|].
  intros x D. rewrite (iswhite_col st); [|exact (proj1 (proj2 K) x D)].
  destruct D as [N [k [Kx Nk]]]. apply alive_kind in Kx. destruct Kx as [ob [Hx Kb]].
  assert (U : unswept st = []) by (unfold unswept; rewrite G; reflexivity).
  destruct (Swp_done st P U x ob Hx) as [F|F]; [exfalso; apply N, s_root, b_root, r_fixed, F|]. unfold iswhite. rewrite Hx, F. reflexivity.
Qed.
Lemma weak_frees : forall st n x k, exec covered init_state st -> gcs st = GCSpause -> gcs (gsteps (S n) st) = GCSpause ->
  kind_of st x = Some k -> k <> KStr -> ~ maybe_held st x -> heap (gsteps (S n) st) x = None.
Proof.
  intros st n x k R G H Kx Nk N. assert (Iv := run_inv st R).
  assert (P := gsteps_Pw (Wset st) n (step st (GStep false)) ltac:(apply step_inv; [exact Iv | exact Logic.I | exact Logic.I]) (or_introl (weak_Mw st false Iv G))).
  change (gsteps n (step st (GStep false))) with (gsteps (S n) st) in P.
  destruct P as [[[P|P] _]|[[P _]|P]]; [congruence | congruence | congruence|].
  apply P. split; [exact N | exists k; split; assumption].
Qed.
(** No table the program can reach refers to an object that has been freed. *)
Lemma no_dangling : forall st t ob, exec covered init_state st -> reach st t -> heap st t = Some ob ->
  (forall x v, In (KyObj x, v) (o_hash ob) -> heap st x <> None) /\ (forall x k, In (k, VObj x) (o_hash ob) -> heap st x <> None) /\
  (forall x, In (VObj x) (o_vals ob) -> heap st x <> None).
Proof.
  intros st t ob R Rt Ht. destruct (run_inv st R) as [C _].
  assert (B : forall b, edge st t b -> heap st b <> None) by (intros b E; exact (proj1 (q_edge _ C t b (alive_reach st C t Rt) E))).
  split; [|split].
  - intros x v I. apply B, (e_key _ _ _ ob v Ht I).
  - intros x k I. apply B, (e_hval _ _ _ ob k Ht I).
  - intros x I. apply B, (e_val _ _ _ ob Ht I).
Qed.
Lemma exec_app : forall ok a b c, exec ok a b -> exec ok b c -> exec ok a c.
Proof. intros ok a b c E F. induction E as [|st e st' L O E IH]; [exact F|]. exact (exec_cons _ _ _ _ L O (IH F)). Qed.
Lemma gsteps_run : forall n st, exec covered st (gsteps n st).
Proof. induction n as [|n IH]; intros st; cbn [gsteps]; [apply exec_nil|]. apply (exec_cons _ st (GStep false)); [exact Logic.I | exact Logic.I | apply IH]. Qed.
(** After the cycle no table the program can reach has an entry for the object. *)
Lemma weak_cleared : forall st n x k, exec covered init_state st -> gcs st = GCSpause -> gcs (gsteps (S n) st) = GCSpause ->
  kind_of st x = Some k -> k <> KStr -> ~ maybe_held st x ->
  forall t ob, reach (gsteps (S n) st) t -> heap (gsteps (S n) st) t = Some ob ->
  (forall v, ~ In (KyObj x, v) (o_hash ob)) /\ (forall key, ~ In (key, VObj x) (o_hash ob)) /\ ~ In (VObj x) (o_vals ob).
Proof.
  intros st n x k R G H Kx Nk N t ob Rt Ht. assert (Z := weak_frees st n x k R G H Kx Nk N).
  destruct (no_dangling _ t ob (exec_app _ _ _ _ R (gsteps_run (S n) st)) Rt Ht) as [A [B C]].
  split; [|split].
  - intros v I. exact (A x v I Z).
  - intros key I. exact (B x key I Z).
  - intros I. exact (C x I Z).
Qed.
