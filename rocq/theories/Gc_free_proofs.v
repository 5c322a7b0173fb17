(** One cycle frees what nothing holds. *)
From Coq Require Import ZArith List Bool Arith Lia.
From Verif Require Import Base Gc_model Gc_spec Gc_facts Gc_tri Gc_fin Gc_core Gc_mark Gc_sweep Gc_inv Gc_mut Gc_upv Gc_exec Gc_dead Gc_deadm Gc_hn Gc_deads Gc_free_spec.
Import ListNotations.
Local Open Scope nat_scope.

(** The objects to be freed. *)
Definition Dset (st : gst) (o x : id) : Prop := ~ held st x /\ heap st x <> None /\ (x = o \/ kind_of st x <> Some KStr).

Lemma kind_dec : forall a b : option kind, {a = b} + {a <> b}.
Proof. decide equality. decide equality. Qed.
Lemma Dset_closed : forall st o a b, Core st -> ~ Dset st o a -> edge st a b -> ~ Dset st o b.
Proof.
  intros st o a b C Na E [Nb _].
  assert (Nh : ~ held st a) by (intros H; apply Nb; exact (h_edge _ _ _ H E)).
  assert (Ha : heap st a <> None) by (destruct E; congruence).
  destruct (kind_dec (kind_of st a) (Some KStr)) as [K|K].
  - exact (str_noedge st a b (q_kwf _ C) K E).
  - apply Na. split; [exact Nh|]. split; [exact Ha | right; exact K].
Qed.
Lemma uv_edge : forall st a ob u b, heap st a = Some ob -> In u (o_upv ob) -> uv_val st u = VObj b -> edge st a b.
Proof.
  intros st a ob u b Ha I V. unfold uv_val in V. destruct (uvs st u) as [[th i t|v]|] eqn:U; [|subst v; exact (e_closed _ _ _ ob u Ha I U)|discriminate].
  destruct (heap st th) as [tb|] eqn:T; [|discriminate].
  apply (e_open _ _ _ ob u th i t tb Ha I U T). destruct (nth_error (o_vals tb) i) as [w|] eqn:N.
  - rewrite (nth_error_nth _ _ _ N) in V. congruence.
  - apply nth_error_None in N. rewrite nth_overflow in V by exact N. discriminate.
Qed.
Lemma touch_held : forall st u th i b, uvs st u = Some (UOpen th i true) -> uv_val st u = VObj b -> held st b.
Proof.
  intros st u th i b U V. unfold uv_val in V. rewrite U in V. destruct (heap st th) as [tb|] eqn:T; [|discriminate].
  apply (h_touch st u th i tb b U T). destruct (nth_error (o_vals tb) i) as [w|] eqn:N.
  - rewrite (nth_error_nth _ _ _ N) in V. congruence.
  - apply nth_error_None in N. rewrite nth_overflow in V by exact N. discriminate.
Qed.
(** An open upvalue of a thread is a slot of that thread. *)
Lemma start_Q : forall st o, Core st -> Gc_dead.Q (Dset st o) true (set_lists st [] [] [] [] []).
Proof.
  intros st o C. apply Q_intro.
  - intros x ob Hx N b R D. cbn in Hx. refine (Dset_closed st o x b C N _ D).
    destruct R as [R|[R|[[v R]|[[k R]|R]]]]; [exact (e_meta _ _ _ ob Hx R) | exact (e_val _ _ _ ob Hx R) | exact (e_key _ _ _ ob v Hx R) | exact (e_hval _ _ _ ob k Hx R) | exact (e_cache _ _ _ ob Hx R)].
  - intros x ob u Hx N I b V D. cbn in Hx. change (uv_val st u = VObj b) in V. refine (Dset_closed st o x b C N _ D). destruct I as [I|I].
    + exact (uv_edge st x ob u b Hx I V).
    + destruct (q_open _ C x ob u Hx I) as (i & t & U).
      unfold uv_val in V. rewrite U, Hx in V. apply (e_val _ _ _ ob Hx). destruct (nth_in_or_default i (o_vals ob) VNil) as [J|J]; congruence.
  - intros u th i U b V D. exact (proj1 D (touch_held st u th i b U V)).
  - intros x R D. apply (proj1 D), h_root. refine (root_eq _ _ _ _ _ _ _ _ _ _ _ R); reflexivity.
  - intros x I D. exact (proj1 D (h_fin st x I)).
  - intros x [].
Qed.
Lemma start_PH : forall st o em, Inv st -> gcs st = GCSpause -> Mk (Dset st o) (step st (GStep em)).
Proof.
  intros st o em [C [L P]] G. cbn [step]. unfold singlestep. rewrite G. unfold Phase in P. rewrite G in P.
  assert (Q0 := start_Q st o C). assert (K := Q_restart (Dset st o) true _ Q0).
  change (restartcollection (set_lists st [] [] [] [] [])) with (restartcollection st) in K.
  split; [left; reflexivity|]. split; [apply (Q_set_gcs (Dset st o) true _ GCSpropagate (proj1 K))|].
  intros x D. rewrite (iswhite_col st); [|exact (proj1 (proj2 K) x D)].
  destruct (heap st x) as [ob|] eqn:Hx; [|exfalso; apply D, Hx].
  assert (U : unswept st = []) by (unfold unswept; rewrite G; reflexivity).
  destruct (Swp_done st P U x ob Hx) as [F|F]; [exfalso; apply (proj1 D), h_root, r_fixed, F|]. unfold iswhite. rewrite Hx, F. reflexivity.
Qed.
Lemma PH_lt : forall (D : id -> Prop) st, Inv st -> PH D st -> forall x, D x -> x < nextid st.
Proof.
  intros D st [C _] P x Dx. destruct P as [[_ [_ P]]|[[_ [_ P]]|P]]; [|apply P, Dx | apply P, Dx].
  specialize (P x Dx). unfold iswhite in P. destruct (heap st x) as [ob|] eqn:Hx; [|discriminate]. exact (q_lt _ C _ _ Hx).
Qed.
Lemma kind_eq : forall a b x, option_map o_kind (heap a x) = option_map o_kind (heap b x) -> kind_of a x = kind_of b x.
Proof. intros a b x E. unfold kind_of. destruct (heap a x), (heap b x); cbn in *; congruence. Qed.
Lemma exec_away : forall (D : id -> Prop) o st st', (forall s, D s -> s = o \/ kind_of st s <> Some KStr) -> exec (away o) st st' -> Inv st -> PH D st -> Inv st' /\ PH D st'.
Proof.
  intros D o st st' K E. revert K. induction E as [st | st e st' Lg [Cv [Ni Ab]] E IH]; intros K Iv P; [split; assumption|].
  assert (Lt := PH_lt D st Iv P). apply IH.
  - intros s Ds. destruct (K s Ds) as [->|Kn]; [left; reflexivity|]. right. destruct (step_kind st e s (Lt s Ds)) as [[Z|Z] _].
    + unfold kind_of. rewrite Z. discriminate.
    + rewrite (kind_eq _ _ _ Z). exact Kn.
  - exact (step_inv st e Iv Lg Cv).
  - apply step_PH; try assumption. intros s -> Ds. destruct (K s Ds) as [->|Kn]; [apply Ni; reflexivity | apply Kn; exact Lg].
Qed.
Lemma exec_none : forall ok st st' x, exec ok st st' -> heap st x = None -> x < nextid st -> heap st' x = None /\ x < nextid st'.
Proof. intros ok st st' x E. induction E as [st | st e st' Lg O E IH]; intros H L; [split; assumption|]. destruct (step_none st e x H L). apply IH; assumption. Qed.
Lemma cycle_frees : forall st0 em st1 ok st2 o,
  exec covered init_state st0 -> gcs st0 = GCSpause -> heap st0 o <> None -> ~ held st0 o ->
  exec (away o) (step st0 (GStep em)) st1 -> swept_out (gcs st1) ->
  exec ok st1 st2 -> heap st2 o = None.
Proof.
  intros st0 em st1 ok st2 o R G Ho N E [S1 [S2 S3]] E2. assert (Iv := run_inv st0 R).
  assert (I1 : Inv (step st0 (GStep em))) by (apply step_inv; [exact Iv | exact Logic.I | exact Logic.I]).
  assert (Do : Dset st0 o o) by (split; [exact N|]; split; [exact Ho | left; reflexivity]).
  destruct (exec_away (Dset st0 o) o (step st0 (GStep em)) st1) with (2 := E) as [I3 P3].
  - intros s Ds. destruct (proj2 (proj2 Ds)) as [->|Kn]; [left; reflexivity|]. right.
    assert (Ls : s < nextid st0) by (destruct (heap st0 s) as [b|] eqn:Hs; [exact (q_lt _ (proj1 Iv) _ _ Hs) | exfalso; apply Ds, Hs]).
    destruct (step_kind st0 (GStep em) s Ls) as [[Z|Z] _]; [unfold kind_of; rewrite Z; discriminate | rewrite (kind_eq _ _ _ Z); exact Kn].
  - exact I1.
  - left. apply start_PH; assumption.
  - destruct P3 as [[[P|P] _]|[[P _]|P]]; [contradiction | contradiction | contradiction|].
    destruct (P o Do) as [L H]. destruct (exec_none ok st1 st2 o E2 H L). assumption.
Qed.

(** ** A cycle comes to its end *)
Lemma gsteps_add : forall n m st, gsteps (n + m) st = gsteps m (gsteps n st).
Proof. induction n as [|n IH]; intros m st; [reflexivity|]. cbn [Nat.add gsteps]. apply IH. Qed.
Lemma gsteps_inv : forall n st, Inv st -> Inv (gsteps n st).
Proof. induction n as [|n IH]; intros st Iv; [exact Iv|]. cbn [gsteps]. apply IH, step_inv; [exact Iv | exact Logic.I | exact Logic.I]. Qed.
Definition ends (st : gst) : Prop := exists n, gcs (gsteps n st) = GCSpause.
Lemma ends_step : forall st, ends (step st (GStep false)) -> ends st.
Proof. intros st [n H]. exists (S n). exact H. Qed.
Lemma ends_callfin : forall n st, Inv st -> gcs st = GCScallfin -> length (tobefnz st) <= n -> ends st.
Proof.
  induction n as [|n IH]; intros st Iv G L.
  - apply ends_step. exists 0. cbn [gsteps step]. unfold singlestep. rewrite G. destruct (tobefnz st); [reflexivity | cbn in L; lia].
  - apply ends_step. destruct (tobefnz st) as [|z zs] eqn:T.
    + exists 0. cbn [gsteps step]. unfold singlestep. rewrite G, T. reflexivity.
    + assert (I2 : Inv (step st (GStep false))) by (apply step_inv; [exact Iv | exact Logic.I | exact Logic.I]).
      assert (E : step st (GStep false) = gctm st) by (cbn [step]; unfold singlestep; rewrite G, T; reflexivity). rewrite E in *.
      assert (F : gcs (gctm st) = GCScallfin /\ tobefnz (gctm st) = zs).
      { unfold gctm. rewrite T. cbv zeta. set (s := set_objs st (z :: allgc st) (finobj st) zs). 
        assert (A : gcs s = GCScallfin /\ tobefnz s = zs) by (split; [exact G | reflexivity]). clearbody s.
        set (s1 := modify s z _). assert (B : gcs s1 = gcs s /\ tobefnz s1 = tobefnz s) by (unfold s1; rewrite modify_rest; split; reflexivity). clearbody s1.
        assert (Sp : issweepphase s1 = false) by (unfold issweepphase; destruct B as [-> _], A as [-> _]; reflexivity). rewrite Sp.
        assert (B' : gcs s1 = GCScallfin /\ tobefnz s1 = zs) by (destruct A, B; split; congruence).
        destruct (heap s1 z) as [ob|]; [|exact B']. destruct (gcfield s1 ob); [|exact B']. unfold push. rewrite modify_rest. exact B'. }
      apply IH; [exact I2 | apply F|]. rewrite (proj2 F). cbn in L. lia.
Qed.
Definition togo (st : gst) : nat := match sweepgc st with None => 0 | Some p => S (length (snd (split_ptr p (swlist st)))) end.
Lemma sweeplist_rest : forall l n st, n <> 0 -> l <> [] -> length (snd (sweeplist n st l)) < length l.
Proof.
  assert (A : forall l n st, length (snd (sweeplist n st l)) <= length l).
  { induction l as [|o l IH]; intros n st; destruct n; cbn; try lia. destruct (isdead st o); [specialize (IH n (freeobj st o)); lia|].
    specialize (IH n (makewhite st o)). destruct (sweeplist n (makewhite st o) l) as [[s k] r]. cbn in *. lia. }
  intros l n st Hn Hl. destruct n as [|n]; [contradiction|]. destruct l as [|o l]; [contradiction|]. cbn.
  destruct (isdead st o); [specialize (A l n (freeobj st o)); lia|]. specialize (A l n (makewhite st o)). destruct (sweeplist n (makewhite st o) l) as [[s k] r]. cbn in *. lia.
Qed.
Lemma sweepstep_togo : forall st p next nl, Core st -> Lists st -> sweeping (gcs st) -> sweepgc st = Some p -> togo (sweepstep st next nl) < togo st.
Proof.
  intros st p next nl C L G P. unfold sweepstep. unfold togo at 2. rewrite P.
  pose proof (split_ptr_app p (swlist st)) as Sp. destruct (split_ptr p (swlist st)) as [pre suf] eqn:Es. cbn [fst snd] in Sp |- *.
  assert (Sw : NoDup (swlist st) /\ sweepable st suf).
  { destruct (NoDup_lists st L) as [N1 [N2 N3]]. unfold swlist in *.
    destruct G as [G | [G | G]]; rewrite G in *; (split; [assumption|]);
      [apply (sweepable_allgc st suf L) | apply (sweepable_finobj st suf L) | apply (sweepable_tobefnz st suf L)]; intros x I; rewrite <- Sp; apply in_or_app; auto. }
  destruct Sw as [Nd Sw].
  assert (Ns : NoDup suf) by (rewrite <- Sp in Nd; apply NoDup_split in Nd; tauto).
  assert (Len : suf <> [] -> length (snd (sweeplist GCSWEEPMAX st suf)) < length suf) by (apply sweeplist_rest; discriminate).
  pose proof (sweeplist_ok suf GCSWEEPMAX st C Ns Sw) as W. cbv zeta in W. destruct (sweeplist GCSWEEPMAX st suf) as [[s kept] rest]. cbn [fst snd] in W, Len.
  destruct (frest_fields _ _ (proj1 (w_rest _ _ _ _ _ W))) as [Hn [Hc [Hg [Ha [Hf [Ht [Hx _]]]]]]].
  assert (Nk : NoDup (fst (split_ptr p (swlist st)) ++ kept ++ rest)).
  { rewrite Es. cbn. destruct (w_sub _ _ _ _ _ W) as [Nk Sub]. rewrite <- Sp in Nd. rewrite <- (app_nil_r (kept ++ rest)).
    apply (NoDup_mid _ pre suf []); [rewrite app_nil_r; exact Nd | exact Nk | exact Sub]. }
  assert (Sl : swlist (set_sweepgc (set_swlist s (pre ++ kept ++ rest)) (next_ptr p kept rest)) = pre ++ kept ++ rest /\ sweepgc (set_sweepgc (set_swlist s (pre ++ kept ++ rest)) (next_ptr p kept rest)) = next_ptr p kept rest).
  { unfold set_swlist, swlist. rewrite Hg. destruct G as [G | [G | G]]; rewrite G; cbn; rewrite Hg, G; split; reflexivity. }
  unfold togo. rewrite (proj2 Sl). destruct (next_ptr p kept rest) as [q|] eqn:Eq; [|lia]. rewrite (proj1 Sl).
  destruct suf as [|x suf].
  - exfalso. assert (rest = []) by (destruct rest as [|r rest]; [reflexivity|]; assert (J : In r (kept ++ r :: rest)) by (apply in_or_app; right; left; reflexivity); destruct (proj2 (w_sub _ _ _ _ _ W) r J)).
    subst rest. discriminate.
  - assert (E : snd (split_ptr q (pre ++ kept ++ rest)) = rest).
    { assert (X := next_ptr_split p (swlist st) kept rest q Nk). rewrite Es in X. cbn [fst snd] in X. apply X; [discriminate | exact Eq]. }
    rewrite E. specialize (Len ltac:(discriminate)). lia.
Qed.
Lemma ends_sweep : forall g next nl, sweeping g -> (forall em s, gcs s = g -> singlestep em s = sweepstep s next nl) ->
  (forall s, Inv s -> gcs s = next -> ends s) ->
  forall n st, Inv st -> gcs st = g -> togo st <= n -> ends st.
Proof.
  intros g next nl Sg Es Nx. induction n as [|n IH]; intros st Iv G T; apply ends_step; assert (I2 : Inv (step st (GStep false))) by (apply step_inv; [exact Iv | exact Logic.I | exact Logic.I]);
    cbn [step] in *; rewrite (Es false st G) in *; destruct (sweepgc st) as [p|] eqn:P.
  - unfold togo in T. rewrite P in T. lia.
  - apply Nx; [exact I2|]. unfold sweepstep. rewrite P. reflexivity.
  - destruct Iv as [C [L Ph]]. assert (Lt := sweepstep_togo st p next nl C L ltac:(rewrite G; exact Sg) P).
    apply IH; [exact I2 | | lia]. unfold sweepstep. rewrite P. destruct (split_ptr p (swlist st)) as [pre suf] eqn:Esp.
    assert (Fs : frest st (fst (fst (sweeplist GCSWEEPMAX st suf)))).
    { pose proof (split_ptr_app p (swlist st)) as Sp. rewrite Esp in Sp. cbn [fst snd] in Sp.
      assert (Sw : NoDup (swlist st) /\ sweepable st suf).
      { destruct (NoDup_lists st L) as [N1 [N2 N3]]. unfold swlist in *. rewrite G in *.
        destruct Sg as [-> | [-> | ->]]; (split; [assumption|]);
          [apply (sweepable_allgc st suf L) | apply (sweepable_finobj st suf L) | apply (sweepable_tobefnz st suf L)]; intros x I; rewrite <- Sp; apply in_or_app; auto. }
      destruct Sw as [Nd Sw]. assert (Ns : NoDup suf) by (rewrite <- Sp in Nd; apply NoDup_split in Nd; tauto).
      exact (proj1 (w_rest _ _ _ _ _ (sweeplist_ok suf GCSWEEPMAX st C Ns Sw))). }
    destruct (sweeplist GCSWEEPMAX st suf) as [[s kept] rest]. cbn in Fs. destruct (frest_fields _ _ Fs) as [_ [_ [Hg _]]].
    unfold set_swlist. rewrite Hg, G. destruct Sg as [-> | [-> | ->]]; cbn; congruence.
  - apply Nx; [exact I2|]. unfold sweepstep. rewrite P. reflexivity.
Qed.
Lemma ends_sw : forall st, Inv st -> gcs st = GCSswpallgc -> ends st.
Proof.
  assert (E3 : forall st, Inv st -> gcs st = GCSswpend -> ends st).
  { intros st Iv G. apply ends_step. apply (ends_callfin (length (tobefnz (step st (GStep false))))); [apply step_inv; [exact Iv | exact Logic.I | exact Logic.I] | | lia].
    cbn [step]. unfold singlestep. rewrite G. reflexivity. }
  assert (E2 : forall st, Inv st -> gcs st = GCSswptobefnz -> ends st).
  { intros st Iv G. apply (ends_sweep GCSswptobefnz GCSswpend None) with (n := togo st); [right; right; reflexivity | intros em s Gs; unfold singlestep; rewrite Gs; reflexivity | exact E3 | exact Iv | exact G | lia]. }
  assert (E1 : forall st, Inv st -> gcs st = GCSswpfinobj -> ends st).
  { intros st Iv G. apply (ends_sweep GCSswpfinobj GCSswptobefnz (Some PHead)) with (n := togo st); [right; left; reflexivity | intros em s Gs; unfold singlestep; rewrite Gs; reflexivity | exact E2 | exact Iv | exact G | lia]. }
  intros st Iv G. apply (ends_sweep GCSswpallgc GCSswpfinobj (Some PHead)) with (n := togo st); [left; reflexivity | intros em s Gs; unfold singlestep; rewrite Gs; reflexivity | exact E1 | exact Iv | exact G | lia].
Qed.

Lemma ends_mark : forall n st, Inv st -> gcs st = GCSpropagate -> Gc_trav.cnt st <= n -> ends st.
Proof.
  assert (Ea : forall st, Inv st -> gcs st = GCSenteratomic -> ends st).
  { intros st Iv G. apply ends_step, ends_sw; [apply step_inv; [exact Iv | exact Logic.I | exact Logic.I]|].
    destruct Iv as [C [L P]]. unfold Phase in P. rewrite G in P. destruct (atomic_ok st C L P) as [C1 L1]. destruct (entersweep_ok (atomic st) C1 L1) as [_ [_ [_ G2]]].
    cbn [step]. unfold singlestep. rewrite G. exact G2. }
  induction n as [|n IH]; intros st Iv G T; apply ends_step; assert (I2 : Inv (step st (GStep false))) by (apply step_inv; [exact Iv | exact Logic.I | exact Logic.I]).
  - apply Ea; [exact I2|]. cbn [step]. unfold singlestep. rewrite G. destruct (gray st) eqn:E; [reflexivity|]. unfold Gc_trav.cnt in T. rewrite E in T. cbn in T. lia.
  - destruct (gray st) as [|g0 gl] eqn:E; [apply Ea; [exact I2|]; cbn [step]; unfold singlestep; rewrite G, E; reflexivity|].
    assert (Ng : gray st <> []) by congruence. destruct Iv as [C [L P]]. unfold Phase in P. rewrite G in P.
    destruct (propagate_ok st C L P G Ng) as [_ [_ [_ G']]]. destruct (Gc_prop.propagatemark_ok MA [] st (mk_ci _ _ P) G Ng) as [_ [_ Lt]].
    assert (Es : step st (GStep false) = propagatemark st) by (cbn [step]; unfold singlestep; rewrite G, E; reflexivity). rewrite Es in *.
    apply IH; [exact I2 | exact G' | lia].
Qed.
Lemma exec_gsteps : forall n o st, exec (away o) st (gsteps n st).
Proof. induction n as [|n IH]; intros o st; cbn [gsteps]; [apply exec_nil|]. apply (exec_cons _ st (GStep false)); [exact Logic.I | split; [exact Logic.I|]; split; discriminate | apply IH]. Qed.
Lemma pause_dec : forall g, g = GCSpause \/ g <> GCSpause.
Proof. destruct g; auto; right; discriminate. Qed.
Lemma least_pause : forall n st, gcs (gsteps (S n) st) = GCSpause -> exists m, gcs (gsteps (S m) st) = GCSpause /\ forall k, 0 < k <= m -> gcs (gsteps k st) <> GCSpause.
Proof.
  induction n as [n IH] using lt_wf_ind; intros st H.
  assert (A : (exists k, 0 < k <= n /\ gcs (gsteps k st) = GCSpause) \/ forall k, 0 < k <= n -> gcs (gsteps k st) <> GCSpause).
  { clear IH H. induction n as [|n IH]; [right; intros k L; lia|]. destruct IH as [[k [L E]]|IH]; [left; exists k; split; [lia | exact E]|].
    destruct (pause_dec (gcs (gsteps (S n) st))) as [E|E]; [left; exists (S n); split; [lia | exact E]|].
    right. intros k L. destruct (Nat.eq_dec k (S n)) as [->|]; [exact E | apply IH; lia]. }
  destruct A as [[k [L E]]|A]; [|exists n; split; assumption]. destruct k as [|k]; [lia|]. apply (IH k); [lia | exact E].
Qed.
Lemma cycle_ends : forall st, exec covered init_state st -> gcs st = GCSpause ->
  exists n, gcs (gsteps (S n) st) = GCSpause /\ forall k, 0 < k <= n -> gcs (gsteps k st) <> GCSpause.
Proof.
  intros st R G. assert (Iv := run_inv st R). 
  assert (I2 : Inv (step st (GStep false))) by (apply step_inv; [exact Iv | exact Logic.I | exact Logic.I]).
  assert (G2 : gcs (step st (GStep false)) = GCSpropagate) by (cbn [step]; unfold singlestep; rewrite G; reflexivity).
  destruct (ends_mark _ _ I2 G2 (Nat.le_refl _)) as [n H]. exact (least_pause n st H).
Qed.
Lemma full_cycle : forall st n, exec covered init_state st -> gcs st = GCSpause -> gcs (gsteps (S n) st) = GCSpause ->
  forall o, ~ held st o -> heap (gsteps (S n) st) o = None.
Proof.
  intros st n R G H o No.
  destruct (heap st o) as [ob|] eqn:Ho.
  - apply (cycle_frees st false (gsteps (S n) st) covered _ o R G); [congruence | exact No | exact (exec_gsteps n o (step st (GStep false))) | rewrite H; repeat split; discriminate | apply exec_nil].
  - assert (A : forall m s, heap s o = None -> nextid (gsteps m s) = nextid s /\ heap (gsteps m s) o = None).
    { induction m as [|m IH]; intros s Hs; [split; [reflexivity | exact Hs]|]. cbn [gsteps].
      destruct (hn_singlestep false s) as [A B]. destruct (IH (step s (GStep false))) as [C E]; [exact (hk_none _ _ _ A Hs)|]. split; [rewrite C; exact B | exact E]. }
    apply A, Ho.
Qed.
