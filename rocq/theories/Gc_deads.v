(** Objects the program cannot reach are freed by the sweep. *)
From Coq Require Import ZArith List Bool Arith Lia Permutation.
From Verif Require Import Base Gc_model Gc_spec Gc_facts Gc_tri Gc_fin Gc_core Gc_mark Gc_sweep Gc_inv Gc_mut Gc_upv Gc_exec Gc_dead Gc_deadm Gc_hn.
Import ListNotations.
Local Open Scope nat_scope.

Section deads.
Variable D : id -> Prop.
Notation Q := (Gc_dead.Q D true).
Notation okv := (Gc_dead.okv D).
Notation same := (Gc_dead.same D).
Notation fullc := (Gc_dead.fullc D).
Notation KM := (Gc_deadm.KM D).

(** ** Freeing and painting *)
Lemma Q_fields : forall st st', Q st -> heap st' = heap st -> uvs st' = uvs st -> glists [] st' = glists [] st ->
  (forall o, In o (finobj st') -> ~ D o) -> (forall o, root st' o -> ~ D o) -> Q st'.
Proof.
  intros st st' H E1 E2 E4 F R.
  assert (V : forall u, uv_val st' u = uv_val st u) by (intros u; unfold uv_val; rewrite E1, E2; reflexivity). apply Q_intro.
  - intros o ob Ho. rewrite E1 in Ho. apply (Q_full D _ _ _ H Ho).
  - intros o ob u Ho N I. rewrite E1 in Ho. rewrite V. exact (d_upv _ _ _ H _ _ _ Ho N I).
  - intros u th i X. rewrite E2 in X. rewrite V. exact (d_touch _ _ _ H _ _ _ X).
  - exact R.
  - exact F.
  - rewrite E4. apply (d_list _ _ _ H).
Qed.
Lemma Q_objs : forall st a f t p g, Q st -> (forall o, In o f -> ~ D o) -> (forall o, In o t -> ~ D o) ->
  Q (set_sweepgc (set_objs (set_gcs st g) a f t) p).
Proof.
  intros st a f t p g H F T. apply (Q_fields st); [exact H | reflexivity | reflexivity | reflexivity | exact F|].
  intros o R. destruct R as [R|R|R|R|R|R|R|R]; cbn in R; try (apply (d_root _ _ _ H); first [apply r_main, R | apply r_cur, R | apply r_reg, R | apply r_mt, R | apply r_cache, R | apply r_fixed, R | apply r_memerr, R]).
  exact (T o R).
Qed.
Lemma Q_col : forall st o c, Q st -> Q (setcol st o c).
Proof.
  intros st o c H. destruct (setcol_fields st o c) as (F1&F2&F3&F4&F5&F6&F7&F8&F9&F10&F11&F12&F13&F14&F15&F16&F17).
  assert (V : forall u, uv_val (setcol st o c) u = uv_val st u) by (intros u; apply cu_uv_val, cu_setcol).
  assert (G : forall x ob, heap (setcol st o c) x = Some ob -> exists a c', heap st x = Some a /\ ob = with_col a c').
  { intros x ob Hx. rewrite heap_setcol in Hx. destruct (Nat.eqb_spec x o) as [->|].
    - destruct (heap st o) as [a|]; [|discriminate]. injection Hx as <-. exists a, c. split; reflexivity.
    - exists ob, (o_col ob). split; [exact Hx | destruct ob; reflexivity]. }
  apply Q_intro.
  - intros x ob Hx N. destruct (G x ob Hx) as [a [c' [Ha ->]]]. intros b R. apply oref_with_col in R. exact (Q_full D _ _ _ H Ha N b R).
  - intros x ob u Hx N I. destruct (G x ob Hx) as [a [c' [Ha ->]]]. rewrite V. apply (d_upv _ _ _ H _ _ _ Ha N). destruct a. exact I.
  - intros u th i X. rewrite V. rewrite F2 in X. exact (d_touch _ _ _ H _ _ _ X).
  - intros x R. apply (d_root _ _ _ H). refine (root_eq _ _ _ _ _ _ _ _ _ _ _ R); assumption.
  - rewrite F7. apply (d_fin _ _ _ H).
  - unfold setcol. rewrite glists_modify. apply (d_list _ _ _ H).
Qed.
Lemma Q_free : forall st o, Q st -> Q (freeobj st o).
Proof.
  intros st o H. unfold freeobj. destruct (heap st o) as [ob|] eqn:Ho; [|exact H].
  set (s := match o_kind ob with KThread => fold_left close_upv (o_open ob) st | _ => st end).
  assert (A : heap s = heap st /\ (forall u, uvs s u = uvs st u \/ uvs s u = Some (UClosed (uv_val st u))) /\ (exists f n, s = set_uvs st f n)).
  { assert (T : heap st = heap st /\ (forall u, uvs st u = uvs st u \/ uvs st u = Some (UClosed (uv_val st u))) /\ exists f n, st = set_uvs st f n).
    { split; [reflexivity|]. split; [left; reflexivity|]. exists (uvs st), (nextuv st). destruct st; reflexivity. }
    unfold s. destruct (o_kind ob); try exact T.
    destruct (close_upvs_uvs (o_open ob) st) as [A [B C]]. split; [exact A|]. split.
    - intros u. rewrite B. destruct (existsb _ _); [right | left]; reflexivity.
    - exists (uvs (fold_left close_upv (o_open ob) st)), (nextuv (fold_left close_upv (o_open ob) st)).
      set (t := fold_left close_upv (o_open ob) st) in *. clearbody t. rewrite <- C. destruct t; reflexivity. }
  destruct A as [A1 [A2 [f [n A3]]]]. clearbody s.
  set (s' := set_heap s (fun x => if Nat.eqb x o then None else heap s x)).
  assert (V : forall u, okv (uv_val st u) -> okv (uv_val s' u)).
  { intros u Ou. unfold uv_val at 1. cbn [uvs s' set_heap]. destruct (A2 u) as [-> | ->]; [|exact Ou].
    unfold uv_val in Ou. destruct (uvs st u) as [[th i t|v]|]; [|exact Ou|exact Ou]. cbn. rewrite A1. destruct (Nat.eqb th o); [intros b; discriminate | exact Ou]. }
  assert (G : forall x b, heap s' x = Some b -> heap st x = Some b).
  { intros x b Hx. cbn in Hx. rewrite A1 in Hx. destruct (Nat.eqb x o); [discriminate | exact Hx]. }
  apply Q_intro.
  - intros x b Hx N. exact (Q_full D _ _ _ H (G _ _ Hx) N).
  - intros x b u Hx N I. apply V, (d_upv _ _ _ H _ _ _ (G _ _ Hx) N I).
  - intros u th i X. apply V. cbn in X. destruct (A2 u) as [E|E]; rewrite E in X; [|discriminate]. exact (d_touch _ _ _ H _ _ _ X).
  - intros x R. apply (d_root _ _ _ H). refine (root_eq _ _ _ _ _ _ _ _ _ _ _ R); unfold s'; rewrite A3; reflexivity.
  - unfold s'. rewrite A3. apply (d_fin _ _ _ H).
  - unfold s'. rewrite A3. apply (d_list _ _ _ H).
Qed.
Lemma Q_sweeplist : forall l n st, Q st -> Q (fst (fst (sweeplist n st l))).
Proof.
  induction l as [|o l IH]; intros n st H; destruct n; cbn; try exact H. destruct (isdead st o); [apply IH, Q_free, H|].
  specialize (IH n (makewhite st o) (Q_col _ _ _ H)). destruct (sweeplist n (makewhite st o) l) as [[s k] r]. exact IH.
Qed.
Lemma Q_sweeptolive : forall l st, Q st -> Q (fst (fst (sweeptolive st l))).
Proof. induction l as [|o l IH]; intros st H; cbn; [exact H|]. destruct (isdead st o); [apply IH, Q_free, H|]. apply Q_col, H. Qed.
Lemma Q_set_objs : forall st a f t p, Q st -> (forall o, In o f -> ~ D o) -> (forall o, In o t -> ~ D o) -> Q (set_sweepgc (set_objs st a f t) p).
Proof.
  intros st a f t p H F T. apply (Q_fields st); [exact H | reflexivity | reflexivity | reflexivity | exact F|].
  intros o R. destruct R as [R|R|R|R|R|R|R|R]; cbn in R; try (apply (d_root _ _ _ H); first [apply r_main, R | apply r_cur, R | apply r_reg, R | apply r_mt, R | apply r_cache, R | apply r_fixed, R | apply r_memerr, R]).
  exact (T o R).
Qed.
Lemma Q_tobefnz : forall st o, Q st -> In o (tobefnz st) -> ~ D o.
Proof. intros st o H I. apply (d_root _ _ _ H), r_fin, I. Qed.

(** ** The phases *)
Definition Mk (st : gst) : Prop := (gcs st = GCSpropagate \/ gcs st = GCSenteratomic) /\ Q st /\ forall x, D x -> iswhite st x = true.
Definition Deadx (st : gst) (x : id) : Prop := heap st x = None \/ (isdead st x = true /\ In x (behind st (allgc st))).
Definition Sw (st : gst) : Prop := gcs st = GCSswpallgc /\ Q st /\ forall x, D x -> x < nextid st /\ Deadx st x.
Definition Gn (st : gst) : Prop := forall x, D x -> x < nextid st /\ heap st x = None.
Definition PH (st : gst) : Prop := Mk st \/ Sw st \/ Gn st.

Lemma inall : forall st x, Inv st -> Q st -> D x -> heap st x <> None -> In x (allgc st) /\ x < nextid st.
Proof.
  intros st x [C [L _]] H Dx N. split.
  - apply (l_heap _ L), in_objs in N. destruct N as [N|[N|[N|N]]]; [exact N | exfalso; exact (d_fin _ _ _ H _ N Dx) | exfalso; exact (Q_tobefnz _ _ H N Dx) | exfalso; apply (d_root _ _ _ H x); [apply r_fixed, N | exact Dx]].
  - destruct (heap st x) as [ob|] eqn:E; [|congruence]. exact (q_lt _ C _ _ E).
Qed.
(** One sweep over the rest of 'allgc'. *)
Lemma swept_Dead : forall st p s suf kept rest pre, Lists st -> swept st s suf kept rest -> split_ptr p (allgc st) = (pre, suf) ->
  forall x, D x -> x < nextid st -> isdead st x = true -> In x suf -> forall f t, 
  Deadx (set_sweepgc (set_objs s (pre ++ kept ++ rest) f t) (next_ptr p kept rest)) x.
Proof.
  intros st p s suf kept rest pre L W E x Dx Lx Dd I f t.
  destruct (frest_fields _ _ (proj1 (w_rest _ _ _ _ _ W))) as [Hn [Hc _]].
  destruct (in_dec Nat.eq_dec x rest) as [J|J].
  - right. split.
    + rewrite (isdead_frame st); [exact Dd | exact Hc|]. apply (w_tail _ _ _ _ _ W _ J).
    + assert (Sp := split_ptr_app p (allgc st)). rewrite E in Sp. cbn in Sp.
      destruct (behind_step p (allgc st) kept rest x) as [q [Eq Jq]]; [| |exact J|].
      * rewrite E. cbn [fst]. destruct (w_sub _ _ _ _ _ W) as [Nk Sub]. destruct (NoDup_lists st L) as [Nd _]. rewrite <- Sp in Nd.
        rewrite <- (app_nil_r (kept ++ rest)). apply (NoDup_mid _ pre suf []); [rewrite app_nil_r; exact Nd | exact Nk | exact Sub].
      * rewrite E. cbn. intros Z. rewrite Z in I. destruct I.
      * unfold behind. cbn [sweepgc set_sweepgc allgc set_objs]. rewrite Eq. rewrite E in Jq. exact Jq.
  - destruct (in_dec Nat.eq_dec x kept) as [K|K].
    + destruct (w_keep _ _ _ _ _ W _ K) as [ob [_ [Z _]]]. congruence.
    + left. cbn. apply (w_free _ _ _ _ _ W x I). rewrite in_app_iff. tauto.
Qed.
Lemma entersweep_Sw : forall st, Core st -> Lists st -> Q st -> (forall x, D x -> isdead st x = true /\ In x (allgc st) /\ x < nextid st) -> Sw (entersweep st).
Proof.
  intros st C L H A. unfold entersweep. set (s0 := set_gcs st GCSswpallgc).
  assert (C0 : Core s0) by (apply (Core_lists st s0 C); reflexivity).
  assert (L0 : Lists s0) by (apply (Lists_shape st s0 L), shape_same; reflexivity).
  assert (Q0 : Q s0) by apply (Q_set_gcs D true st GCSswpallgc H).
  destruct (sweeptolive_ok (allgc s0) s0 C0 (proj1 (NoDup_lists s0 L0)) (sweepable_allgc s0 (allgc s0) L0 (incl_refl _))) as [S E0].
  assert (Q1 := Q_sweeptolive (allgc s0) s0 Q0).
  destruct (sweeptolive s0 (allgc s0)) as [[s kept] rest]. cbn [fst snd] in *.
  destruct (frest_fields _ _ (proj1 (w_rest _ _ _ _ _ S))) as [Hn [Hc [Hg [Ha [Hf [Ht [Hx _]]]]]]].
  split; [cbn; rewrite Hg; reflexivity|]. split.
  - apply Q_set_objs; [exact Q1 | apply (d_fin _ _ _ Q1) | intros o; apply Q_tobefnz, Q1].
  - intros x Dx. destruct (A x Dx) as [A1 [A2 A3]]. split; [cbn; rewrite Hn; exact A3|].
    apply (swept_Dead s0 PHead s (allgc s0) kept rest [] L0 S eq_refl x Dx A3 A1 A2).
Qed.
Lemma Sw_sweepstep : forall st, Core st -> Lists st -> Sw st -> Sw (sweepstep st GCSswpfinobj (Some PHead)) \/ Gn (sweepstep st GCSswpfinobj (Some PHead)).
Proof.
  intros st C L [G [H A]]. unfold sweepstep. destruct (sweepgc st) as [p|] eqn:P.
  - left. unfold swlist. rewrite G. assert (Sp := split_ptr_app p (allgc st)). destruct (split_ptr p (allgc st)) as [pre suf] eqn:Es. cbn in Sp.
    destruct (NoDup_lists st L) as [Nd _].
    assert (Ns : NoDup suf) by (rewrite <- Sp in Nd; apply NoDup_split in Nd; tauto).
    assert (W := sweeplist_ok suf GCSWEEPMAX st C Ns (sweepable_allgc st suf L ltac:(intros y J; rewrite <- Sp; apply in_or_app; auto))). cbv zeta in W.
    assert (Q1 := Q_sweeplist suf GCSWEEPMAX st H). destruct (sweeplist GCSWEEPMAX st suf) as [[s kept] rest]. cbn [fst snd] in W, Q1.
    destruct (frest_fields _ _ (proj1 (w_rest _ _ _ _ _ W))) as [Hn [Hc [Hg [Ha [Hf [Ht [Hx _]]]]]]].
    unfold set_swlist. rewrite Hg, G. split; [cbn; congruence|]. split.
    + apply Q_set_objs; [exact Q1 | apply (d_fin _ _ _ Q1) | intros o; apply Q_tobefnz, Q1].
    + intros x Dx. destruct (A x Dx) as [A1 [A2|[A2 A3]]]; (split; [cbn; rewrite Hn; exact A1|]).
      * left. cbn. destruct (in_dec Nat.eq_dec x suf) as [I|I].
        -- exfalso. assert (J : In x (objs st)) by (apply in_objs; left; rewrite <- Sp; apply in_or_app; auto). apply (l_heap _ L) in J. congruence.
        -- rewrite (w_out _ _ _ _ _ W _ I). exact A2.
      * unfold behind in A3. rewrite P, Es in A3. exact (swept_Dead st p s suf kept rest pre L W Es x Dx A1 A2 A3 _ _).
  - right. intros x Dx. destruct (A x Dx) as [A1 [A2|[A2 A3]]]; [split; assumption|]. unfold behind in A3. rewrite P in A3. destruct A3.
Qed.
(** Stores that leave the position of the sweep alone. *)
Lemma isdead_col : forall st st' x, cw st' = cw st -> option_map o_col (heap st' x) = option_map o_col (heap st x) -> isdead st' x = isdead st x.
Proof. intros st st' x C E. unfold isdead. rewrite C. destruct (heap st' x), (heap st x); cbn in E; try discriminate; [injection E as ->|]; reflexivity. Qed.
Lemma iswhite_col : forall st st' x, option_map o_col (heap st' x) = option_map o_col (heap st x) -> iswhite st' x = iswhite st x.
Proof. intros st st' x E. unfold iswhite. destruct (heap st' x), (heap st x); cbn in E; try discriminate; [injection E as ->|]; reflexivity. Qed.
Lemma none_col : forall st st' x, option_map o_col (heap st' x) = option_map o_col (heap st x) -> heap st x = None -> heap st' x = None.
Proof. intros st st' x E H. rewrite H in E. destruct (heap st' x); [discriminate | reflexivity]. Qed.
Lemma KM_Mk : forall st st', Mk st -> KM st st' -> Mk st'.
Proof.
  intros st st' [G [H A]] [H' [S (F1&F2&F3&F4&F5)]]. split; [rewrite F1; exact G|]. split; [exact H'|]. intros x Dx. rewrite (iswhite_col st); [apply A, Dx | apply S, Dx].
Qed.
Lemma KM_Sw : forall st st', Sw st -> KM st st' -> Sw st'.
Proof.
  intros st st' [G [H A]] [H' [S (F1&F2&F3&F4&F5)]]. split; [rewrite F1; exact G|]. split; [exact H'|]. intros x Dx. destruct (A x Dx) as [A1 A2]. split; [rewrite F5; exact A1|].
  destruct A2 as [A2|[A2 A3]]; [left; exact (none_col _ _ _ (S x Dx) A2)|]. right. split; [rewrite (isdead_col st); [exact A2 | exact F2 | apply S, Dx]|].
  unfold behind in *. rewrite F4, F3. exact A3.
Qed.
(** A new object. *)
Lemma Q_alloc : forall st k vs us, Q st -> ~ D (nextid st) -> Forall (reach_val st) vs -> Forall (reach_upv st) us -> Q (alloc st k vs us).
Proof.
  intros st k vs us H N V U.
  assert (Ov : forall b, In (VObj b) vs -> ~ D b).
  { intros b I. rewrite Forall_forall in V. exact (reach_val_ok D st _ H (V _ I) b eq_refl). }
  assert (Val : forall u, okv (uv_val st u) -> okv (uv_val (alloc st k vs us) u)).
  { intros u Ou. unfold uv_val in *. cbn. destruct (uvs st u) as [[th i t|v]|]; [|exact Ou|exact Ou]. destruct (Nat.eqb th (nextid st)); [|exact Ou]. cbn.
    intros b E. destruct (nth_in_or_default i vs VNil) as [I|I]; [rewrite E in I; exact (Ov b I) | congruence]. }
  apply Q_intro.
  - intros x ob Hx Nx. cbn in Hx. destruct (Nat.eqb x (nextid st)); [|exact (Q_full D _ _ _ H Hx Nx)]. injection Hx as <-. intros b R. unfold oref in R. cbn in R.
    destruct R as [R|[R|[[v []]|[[q []]|R]]]]; [discriminate | exact (Ov b R) | discriminate].
  - intros x ob u Hx Nx I. apply Val. cbn in Hx. destruct (Nat.eqb x (nextid st)); [|exact (d_upv _ _ _ H _ _ _ Hx Nx I)]. injection Hx as <-. cbn in I.
    destruct I as [I|[]]. rewrite Forall_forall in U. exact (reach_upv_ok D st u H (U u I)).
  - intros u th i X. apply Val. exact (d_touch _ _ _ H _ _ _ X).
  - intros o R. apply (d_root _ _ _ H). refine (root_eq _ _ _ _ _ _ _ _ _ _ _ R); reflexivity.
  - exact (d_fin _ _ _ H).
  - exact (d_list _ _ _ H).
Qed.
Lemma split_after_cons : forall y o l x, In x (snd (split_after y l)) -> In x (snd (split_after y (o :: l))).
Proof.
  intros y o l x I. cbn. destruct (Nat.eqb o y).
  - cbn. rewrite <- (split_after_app y l). apply in_or_app. right. exact I.
  - destruct (split_after y l) as [a b]. exact I.
Qed.
Lemma alloc_Mk : forall st k vs us, Mk st -> Q (alloc st k vs us) -> ~ D (nextid st) -> Mk (alloc st k vs us).
Proof.
  intros st k vs us [G [H A]] Q1 N. split; [exact G|]. split; [exact Q1|]. intros x Dx. unfold iswhite. cbn. destruct (Nat.eqb_spec x (nextid st)) as [->|]; [contradiction | exact (A x Dx)].
Qed.
Lemma alloc_Sw : forall st k vs us, Sw st -> Q (alloc st k vs us) -> ~ D (nextid st) -> Sw (alloc st k vs us).
Proof.
  intros st k vs us [G [H A]] Q1 N. split; [exact G|]. split; [exact Q1|]. intros x Dx. destruct (A x Dx) as [A1 A2]. split; [cbn; lia|].
  assert (E : heap (alloc st k vs us) x = heap st x) by (cbn; destruct (Nat.eqb_spec x (nextid st)) as [->|]; [contradiction | reflexivity]).
  destruct A2 as [A2|[A2 A3]]; [left; rewrite E; exact A2|]. right. split; [rewrite (isdead_frame st); [exact A2 | reflexivity | exact E]|].
  unfold behind in *. cbn [sweepgc alloc set_objs set_nextid set_heap allgc]. destruct (sweepgc st) as [[|y]|]; [right; exact A3 | apply split_after_cons, A3 | exact A3].
Qed.

(** Moving an object to 'finobj'. *)
Lemma tofin_Q : forall st o, Q st -> ~ D o -> Q (tofin st o).
Proof.
  intros st o H N. unfold tofin.
  set (s := set_objs st (remove1 o (allgc st)) (o :: finobj st) (tobefnz st)).
  assert (Hs : Q s).
  { apply (Q_fields st); [exact H | reflexivity | reflexivity | reflexivity | |].
    - intros x [<-|I]; [exact N | exact (d_fin _ _ _ H x I)].
    - intros x R. apply (d_root _ _ _ H). refine (root_eq _ _ _ _ _ _ _ _ _ _ _ R); reflexivity. }
  apply (Q_put D s o); [exact Hs | exact N|]. intros a _. split; [intros b R; left; exact R | tauto].
Qed.
Lemma tofin_col : forall st o x, ~ D o -> D x -> heap (tofin st o) x = heap st x.
Proof. intros st o x N Dx. rewrite tofin_heap. destruct (Nat.eqb_spec x o) as [->|]; [contradiction | reflexivity]. Qed.
Lemma tofin_fields : forall st o, gcs (tofin st o) = gcs st /\ cw (tofin st o) = cw st /\ nextid (tofin st o) = nextid st /\ sweepgc (tofin st o) = sweepgc st /\ allgc (tofin st o) = remove1 o (allgc st).
Proof.
  intros st o. unfold tofin, modify. cbn [heap set_objs]. destruct (heap st o); repeat split; reflexivity.
Qed.
Lemma tofin_Mk : forall st o, Mk st -> ~ D o -> Mk (tofin st o).
Proof.
  intros st o [G [H A]] N. destruct (tofin_fields st o) as (F1&F2&F3&F4&F5). split; [rewrite F1; exact G|]. split; [apply tofin_Q; assumption|].
  intros x Dx. unfold iswhite. rewrite tofin_col by assumption. exact (A x Dx).
Qed.
Lemma tofin_Sw : forall st o, Sw st -> ~ D o -> sweepgc st <> Some (PNext o) -> Sw (tofin st o).
Proof.
  intros st o [G [H A]] N P. destruct (tofin_fields st o) as (F1&F2&F3&F4&F5). split; [rewrite F1; exact G|]. split; [apply tofin_Q; assumption|].
  intros x Dx. destruct (A x Dx) as [A1 A2]. rewrite F3. split; [exact A1|]. unfold Deadx. rewrite (tofin_col st o x N Dx).
  destruct A2 as [A2|[A2 A3]]; [left; exact A2|]. right. split; [rewrite (isdead_frame st); [exact A2 | exact F2 | apply tofin_col; assumption]|].
  assert (nx : x <> o) by (intros ->; contradiction). unfold behind in *. rewrite F4, F5.
  destruct (sweepgc st) as [[|y]|]; cbn [split_ptr] in *; [apply remove1_in; assumption | apply remove1_behind; [congruence | exact nx | exact A3] | exact A3].
Qed.
Lemma col_Sw : forall st o c, Sw st -> ~ D o -> Sw (setcol st o c).
Proof.
  intros st o c S N. destruct (setcol_fields st o c) as (F1&F2&F3&F4&F5&F6&F7&F8&F9&F10&F11&F12&F13&F14&F15&F16&F17).
  destruct S as [G [H A]]. split; [rewrite F5; exact G|]. split; [apply Q_col, H|]. intros x Dx. destruct (A x Dx) as [A1 A2].
  assert (E : heap (setcol st o c) x = heap st x) by (rewrite heap_setcol; destruct (Nat.eqb_spec x o) as [->|]; [contradiction | reflexivity]).
  assert (En : nextid (setcol st o c) = nextid st) by (unfold setcol, modify; destruct (heap st o); reflexivity).
  rewrite En. split; [exact A1|]. destruct A2 as [A2|[A2 A3]]; [left; rewrite E; exact A2|]. right.
  split; [rewrite (isdead_frame st); [exact A2 | exact F4 | exact E]|]. unfold behind in *. rewrite F10, F6. exact A3.
Qed.
Lemma cf_Mk : forall st o m, Mk st -> ~ D o -> Mk (checkfinalizer st o m).
Proof.
  intros st o m H N. unfold checkfinalizer. destruct (heap st o); [|exact H]. destruct (heap st m); [|exact H]. destruct (_ || _); [exact H|].
  assert (E : issweepphase st = false) by (unfold issweepphase; destruct H as [[-> | ->] _]; reflexivity). rewrite E. exact (tofin_Mk st o H N).
Qed.
Lemma cf_Sw : forall st o m k, Core st -> Lists st -> kind_of st o = Some k -> k <> KStr -> alive st o -> Sw st -> ~ D o -> Sw (checkfinalizer st o m).
Proof.
  intros st o m k C L Kd Nk A S N. destruct (alive_kind st o k Kd) as [ob [Ho Ko]]. unfold checkfinalizer. rewrite Ho.
  destruct (heap st m) as [mb|] eqn:Hm; [|exact S]. destruct (o_fin ob) eqn:Ff; cbn [orb]; [exact S|]. destruct (o_gc mb); cbn [negb]; [|exact S].
  pose proof (nonstr_notfixed st o k C Kd Nk) as Nf.
  assert (Ia : In o (allgc st)).
  { assert (J : In o (objs st)) by (apply (l_heap _ L); congruence). apply in_objs in J. destruct J as [J | [J | [J | J]]]; [exact J | | |contradiction].
    - assert (Z : o_fin ob = true) by (apply (l_fin _ L o ob Ho), in_or_app; auto). congruence.
    - assert (Z : o_fin ob = true) by (apply (l_fin _ L o ob Ho), in_or_app; auto). congruence. }
  assert (Sp : issweepphase st = true) by (unfold issweepphase; destruct S as [-> _]; reflexivity). rewrite Sp.
  pose proof (setcol_fields st o (White (cw st))) as FF. fold (makewhite st o) in FF.
  destruct FF as [E1 [E2 [E3 [E4 [E5 [E6 [E7 [E8 [E9 [E10 _]]]]]]]]]].
  assert (Sw0 : Sw (makewhite st o)) by (apply col_Sw; assumption).
  set (w := makewhite st o) in *.
  assert (Cw : Core w) by (apply Core_makewhite; auto).
  assert (Lw : Lists w) by (apply (Lists_shape st _ L), shape_setcol).
  assert (Iaw : In o (allgc w)) by (rewrite E6; exact Ia).
  assert (Plain : sweepgc w <> Some (PNext o) -> Sw (tofin w o)) by (intros Q'; apply tofin_Sw; assumption).
  unfold tofin in Plain. clearbody w.
  destruct (sweepgc w) as [[|x]|] eqn:Gp; [apply Plain; discriminate | | apply Plain; discriminate].
  pose proof Sw0 as [Gs [Qw Aw]]. rewrite Gs.
  destruct (Nat.eqb_spec x o) as [->|nx]; [|apply Plain; intros Z; inversion Z; congruence].
  pose proof (split_after_app o (allgc w)) as Sa. pose proof (split_after_pre o (allgc w) Iaw) as Ip.
  assert (Eq : split_ptr (PNext o) (allgc w) = split_after o (allgc w)) by reflexivity.
  destruct (split_after o (allgc w)) as [pre suf] eqn:Es. cbn [fst snd] in Sa, Ip.
  destruct (NoDup_lists w Lw) as [Nd _]. assert (Ns : NoDup pre /\ NoDup suf /\ forall y, In y pre -> In y suf -> False) by (rewrite <- Sa in Nd; apply NoDup_split in Nd; exact Nd).
  destruct Ns as [Ns1 [Ns2 Ns3]].
  destruct (sweeptolive_ok suf w Cw Ns2 (sweepable_allgc w suf Lw ltac:(intros y J; rewrite <- Sa; apply in_or_app; auto))) as [W E0].
  assert (Q1 := Q_sweeptolive suf w Qw).
  destruct (sweeptolive w suf) as [[s kept] rest]. cbn [fst snd] in W, E0, Q1.
  destruct (frest_fields _ _ (proj1 (w_rest _ _ _ _ _ W))) as [Hn [Hc [Hg [Ha [Hf [Ht [Hx [Hsg _]]]]]]]].
  set (s1 := set_sweepgc (set_objs s (pre ++ kept ++ rest) (finobj s) (tobefnz s)) (next_ptr (PNext o) kept rest)).
  assert (S1 : Sw s1).
  { split; [cbn; congruence|]. split.
    - apply Q_set_objs; [exact Q1 | apply (d_fin _ _ _ Q1) | intros y; apply Q_tobefnz, Q1].
    - intros x Dx. destruct (Aw x Dx) as [A1 A2]. split; [cbn; rewrite Hn; exact A1|]. destruct A2 as [A2|[A2 A3]].
      + left. cbn. destruct (in_dec Nat.eq_dec x suf) as [I|I].
        * exfalso. assert (J : In x (objs w)) by (apply in_objs; left; rewrite <- Sa; apply in_or_app; auto). apply (l_heap _ Lw) in J. congruence.
        * rewrite (w_out _ _ _ _ _ W _ I). exact A2.
      + unfold behind in A3. rewrite Gp, Eq in A3. cbn in A3. exact (swept_Dead w (PNext o) s suf kept rest pre Lw W Eq x Dx A1 A2 A3 _ _). }
  apply (tofin_Sw s1 o S1 N). intros Z. cbn in Z.
  unfold next_ptr in Z. destruct rest as [|r rest]; [discriminate|]. destruct kept as [|k0 kept]; [pose proof (E0 eq_refl); discriminate|].
  destruct (rev (k0 :: kept)) as [|y l] eqn:Er; [apply (f_equal (@length _)) in Er; rewrite rev_length in Er; discriminate|]. inversion Z; subst y.
  assert (J : In o (k0 :: kept)) by (apply in_rev; rewrite Er; left; reflexivity).
  apply (Ns3 o Ip). apply (proj2 (w_sub _ _ _ _ _ W)). apply in_or_app. auto.
Qed.

(** Setting a metatable, up to the finaliser. *)
Lemma meta_mid : forall st o m0, Inv st -> legal st (MMeta o (Some m0)) -> covered st (MMeta o (Some m0)) ->
  let s := barrier (modify st o (fun b => with_meta b (Some m0))) o m0 in
  Inv s /\ alive s o /\ exists k, kind_of s o = Some k /\ k <> KStr.
Proof.
  intros st o m0 Iv [R [Kh Rm]] Cv. pose proof Iv as [C [L P]]. cbv zeta. pose proof (alive_reach st C o R) as A.
  destruct (has_kind_heap _ _ _ Kh) as [ob [Ho Ko]].
  assert (Kd : kind_of st o = Some (o_kind ob)) by (unfold kind_of; rewrite Ho; reflexivity).
  assert (Ns : o_kind ob <> KStr) by (cbn in Ko; intuition congruence).
  set (f := fun b => with_meta b (Some m0)).
  assert (Am : forall m, Some m0 = Some m -> alive st m /\ kind_of st m = Some KTable).
  { intros m Em. injection Em as <-. destruct Rm as [Rm [k [Km [<- | []]]]]. split; [apply (alive_reach st C m0 Rm) | exact Km]. }
  destruct (open_mod st o f (fun b => Some m0 = Some b) Iv A) as [X1 X2].
  - intros b Hb. rewrite Ho in Hb. inversion Hb; subst b. split; [|reflexivity]. constructor; cbn; auto.
    + pose proof (q_kwf _ C o ob Ho) as W. unfold kwf in *. cbn. cbn in Ko. destruct Ko as [Ko | [Ko | [Ko | []]]]; rewrite <- Ko in *; exact W.
    + intros b [J | J]; cbn in J; [right; apply (Am b J) | left; right; exact J].
  - reflexivity.
  - intros b Hb. rewrite Ho in Hb. inversion Hb; subst b. right. split; [|split; [auto|]].
    + intros _ _ b [J | J]; cbn in J; [auto | left; right; exact J].
    + intros Kp J m Hm. cbn in Hm. injection Hm as <-. right. apply (Cv Kp J).
  - assert (A' : alive (modify st o f) o) by (apply alive_modify_col; [reflexivity | exact A]).
    destruct (barrier_ok (modify st o f) o m0 _ nobody X1 X2 A') as [Y1 Y2].
    { replace (fixedgc (modify st o f)) with (fixedgc st) by (symmetry; apply modify_all). apply (nonstr_notfixed st o _ C Kd Ns). }
    { intros b E. inversion E. auto. }
    pose proof (InvX_undo o _ Y1 Y2) as Ib. set (s := barrier (modify st o f) o m0) in *.
    assert (Ks : kind_of s o = Some (o_kind ob) /\ alive s o).
    { destruct X1 as [C1 [L1 P1]].
      assert (Kd1 : kind_of (modify st o f) o = Some (o_kind ob)) by (rewrite modify_kind; [exact Kd | reflexivity]).
      unfold s, barrier. destruct (isblack (modify st o f) o && iswhite (modify st o f) m0) eqn:Bw; [|auto].
      apply andb_prop in Bw. destruct Bw as [Bk Wm].
      destruct (PhaseX_cases _ _ P1) as [[Kp M] | [Kp S]]; rewrite Kp.
      - destruct (mark_obj_ok (nextid (modify st o f)) _ m0 (Core_typ _ _ C1 M) Wm (cwhite_le_next _)) as [Mr _]. split.
        + destruct (alive_kind _ _ _ Kd1) as [b1 [Hb1 Kb1]]. destruct (r_some _ _ Mr o b1 Hb1) as [b2 [Hb2 [Ww _]]]. unfold kind_of. rewrite Hb2, Ww. cbn. rewrite Kb1. reflexivity.
        + apply (alive_mrel _ _ o (mk_cw _ _ M) Mr A').
      - destruct (alive_kind _ _ _ Kd1) as [b1 [Hb1 Kb1]]. unfold kind_of, alive, isdead, makewhite. rewrite heap_setcol, Nat.eqb_refl, Hb1. cbn. split; [rewrite Kb1; reflexivity|].
        split; [discriminate|]. pose proof (setcol_fields (modify st o f) o (White (cw (modify st o f)))) as [_ [_ [_ [Q' _]]]]. rewrite Q'. destruct (cw (modify st o f)); reflexivity. }
    destruct Ks as [Ks As]. split; [exact Ib|]. split; [exact As|]. exists (o_kind ob). split; assumption.
Qed.

(** ** Every event *)
Lemma meta_PH : forall st o m, Inv st -> legal st (MMeta o (Some m)) -> covered st (MMeta o (Some m)) -> Mk st \/ Sw st -> Mk (step st (MMeta o (Some m))) \/ Sw (step st (MMeta o (Some m))).
Proof.
  intros st o m Iv Lg Cv P. destruct (meta_mid st o m Iv Lg Cv) as [I2 [A2 [k [Kd Nk]]]]. cbn [step]. unfold setmeta. cbv zeta.
  assert (H : Q st) by (destruct P as [P|P]; apply P).
  destruct Lg as [R [_ [Rm _]]]. pose proof (reach_ok D st o H R) as No. pose proof (reach_ok D st m H Rm) as Nm.
  assert (K1 : KM st (modify st o (fun b => with_meta b (Some m)))).
  { apply Q_put; [exact H | exact No|]. intros a Ha. split; [|cbn; tauto]. intros b Rb. unfold oref in *. cbn in Rb. destruct Rb as [Rb|Rb]; [right; injection Rb as <-; exact Nm | left; right; exact Rb]. }
  assert (K2 : KM st (barrier (modify st o (fun b => with_meta b (Some m))) o m)).
  { apply (KM_then D _ _ _ K1). intros H1. apply KM_barrier; assumption. }
  set (s := barrier _ o m) in *. clearbody s. destruct P as [P|P].
  - left. apply cf_Mk; [exact (KM_Mk _ _ P K2) | exact No].
  - right. destruct I2 as [C2 [L2 _]]. apply (cf_Sw s o m k C2 L2 Kd Nk A2 (KM_Sw _ _ P K2) No).
Qed.
Lemma new_PH : forall st k vs us, Inv st -> legal st (MNew k vs us) -> ~ D (nextid st) -> Mk st \/ Sw st -> Mk (step st (MNew k vs us)) \/ Sw (step st (MNew k vs us)).
Proof.
  intros st k vs us Iv Lg N P. cbn [step]. rewrite newobj_alloc.
  assert (H : Q st) by (destruct P as [P|P]; apply P). destruct Lg as [V [U _]].
  assert (Q1 := Q_alloc st k vs us H N V U).
  assert (K : KM (alloc st k vs us) (push (alloc st k vs us) (VObj (nextid st)))) by (apply KM_push; [exact Q1 | intros b E; injection E as <-; exact N]).
  destruct P as [P|P]; [left; exact (KM_Mk _ _ (alloc_Mk _ _ _ _ P Q1 N) K) | right; exact (KM_Sw _ _ (alloc_Sw _ _ _ _ P Q1 N) K)].
Qed.
Lemma gstep_PH : forall st em, Inv st -> (forall x, D x -> x < nextid st) -> Mk st \/ Sw st -> PH (step st (GStep em)).
Proof.
  intros st em Iv Lt P. pose proof Iv as [C [L Ph]]. cbn [step]. unfold singlestep. destruct P as [P|P].
  - pose proof P as [G [H A]]. assert (Mm : Gc_dead.M D true st) by (split; assumption).
    destruct G as [G|G]; rewrite G; unfold Phase in Ph; rewrite G in Ph.
    + left. destruct (gray st) as [|g0 gl] eqn:Eg.
      * assert (K := Q_set_gcs D true st GCSenteratomic H). split; [right; reflexivity|]. split; [apply K|]. exact A.
      * destruct (propagate_ok st C L Ph G ltac:(congruence)) as [_ [_ [_ G']]].
        assert (K := Q_propagatemark D true st Mm). split; [left; exact G'|]. split; [apply K|]. intros x Dx. rewrite (iswhite_col st); [exact (A x Dx) | apply K, Dx].
    + right; left. destruct (atomic_ok st C L Ph) as [Ca La]. assert (K := Q_atomic D true st Mm).
      assert (Ia : Inv (entersweep (atomic st))).
      { replace (entersweep (atomic st)) with (step st (GStep em)) by (cbn [step]; unfold singlestep; rewrite G; reflexivity).
        apply step_inv; [exact Iv | exact Logic.I | exact Logic.I]. }
      apply entersweep_Sw; [exact Ca | exact La | apply K|]. intros x Dx.
      assert (Wx := A x Dx). unfold iswhite in Wx. destruct (heap st x) as [ob|] eqn:Hx; [|discriminate].
      assert (Ex := proj1 (proj2 K) x Dx). rewrite Hx in Ex. destruct (heap (atomic st) x) as [ob'|] eqn:Hx'; [|discriminate Ex].
      assert (Ec : o_col ob' = o_col ob) by (cbn in Ex; congruence). split; [|split].
      * unfold isdead. rewrite Hx', Ec, cw_atomic. destruct (o_col ob) as [w| |] eqn:Ew; try discriminate.
        rewrite (mk_cw _ _ Ph x ob w Hx Ew). destruct (cw st); reflexivity.
      * assert (J : In x (objs (atomic st))) by (apply (l_heap _ La); congruence). apply in_objs in J.
        destruct J as [J|[J|[J|J]]]; [exact J | exfalso; exact (d_fin _ _ _ (proj1 K) _ J Dx) | exfalso; exact (Q_tobefnz _ _ (proj1 K) J Dx) | exfalso; apply (d_root _ _ _ (proj1 K) x); [apply r_fixed, J | exact Dx]].
      * exact (q_lt _ Ca _ _ Hx').
  - pose proof P as [G _]. rewrite G. destruct (Sw_sweepstep st C L P) as [S|S]; [right; left; exact S | right; right; exact S].
Qed.
Lemma step_PH : forall st e, Inv st -> PH st -> legal st e -> covered st e -> (e = GAbort -> keepinvariant st = false) ->
  (forall s, e = MIntern s -> ~ D s) -> (forall x, D x -> x < nextid st) -> PH (step st e).
Proof.
  intros st e Iv P Lg Cv Ab In Lt.
  assert (Gd : Gn st -> PH (step st e)) by (intros S; right; right; intros x Dx; destruct (S x Dx) as [S1 S2]; destruct (step_none st e x S2 S1); split; assumption).
  assert (Ng : Mk st \/ Sw st -> PH (step st e)).
  2: { destruct P as [P|[P|P]]; auto. }
  intros P'. assert (H : Q st) by (destruct P' as [P'|P']; apply P').
  assert (Nn : ~ D (nextid st)) by (intros X; specialize (Lt _ X); lia).
  assert (K := mut_ok D st e H Lg In).
  assert (Km : KM st (step st e) -> PH (step st e)).
  { intros K0. destruct P' as [P'|P']; [left; exact (KM_Mk _ _ P' K0) | right; left; exact (KM_Sw _ _ P' K0)]. }
  assert (G2 : Mk (step st e) \/ Sw (step st e) -> PH (step st e)) by (intros [S|S]; [left | right; left]; exact S).
  destruct e; try (exact (Km K)).
  - apply gstep_PH; assumption.
  - cbn [step]. rewrite (Ab eq_refl). destruct P' as [P'|P']; [left | right; left]; exact P'.
  - cbn [step]. destruct P' as [P'|P'].
    + destruct (is_propagate (gcs st)); [|left; exact P']. left. destruct P' as [G [H0 A]]. split; [right; reflexivity|]. split; [apply (Q_set_gcs D true st GCSenteratomic H0) | exact A].
    + destruct P' as [G P']. rewrite G. cbn. right; left. split; [exact G | exact P'].
  - apply G2, new_PH; assumption.
  - destruct mt as [m|]; [apply G2, meta_PH; assumption | exact (Km K)].
Qed.
End deads.
