(** Metatables and finalisers keep the invariant; whole executions. *)
From Coq Require Import ZArith List Bool Arith Lia Permutation.
From Verif Require Import Base Gc_model Gc_spec Gc_facts Gc_tri Gc_trav Gc_prop Gc_atomic Gc_fin Gc_core Gc_mark Gc_sweep Gc_inv Gc_mut Gc_upv.
Import ListNotations.
Local Open Scope nat_scope.

(** ** Taking an object out of 'allgc' *)

Lemma remove1_perm : forall o l, In o l -> Permutation l (o :: remove1 o l).
Proof.
  induction l as [|x l IH]; intros I; [destruct I|]. cbn. destruct (Nat.eqb_spec x o) as [->|n]; [reflexivity|].
  destruct I as [I | I]; [congruence|]. rewrite (IH I) at 1. apply perm_swap.
Qed.
Lemma remove1_in : forall o l x, x <> o -> In x l -> In x (remove1 o l).
Proof.
  induction l as [|y l IH]; intros x n I; [destruct I|]. cbn. destruct (Nat.eqb_spec y o) as [->|ny]; destruct I as [I | I].
  - congruence.
  - exact I.
  - left. exact I.
  - right. apply (IH x n I).
Qed.
Lemma remove1_behind : forall o y l x, y <> o -> x <> o -> In x (snd (split_after y l)) -> In x (snd (split_after y (remove1 o l))).
Proof.
  induction l as [|a l IH]; intros x ny nx I; [destruct I|]. cbn [split_after] in I. cbn [remove1].
  destruct (Nat.eqb_spec a o) as [->|na].
  - assert (E : o <> y) by congruence. apply Nat.eqb_neq in E. rewrite E in I. destruct (split_after y l); exact I.
  - cbn [split_after]. destruct (Nat.eqb_spec a y) as [->|nay]; [cbn [snd] in *; apply remove1_in; assumption|].
    destruct (split_after y l) as [p q]. cbn [snd] in I. specialize (IH x ny nx I). destruct (split_after y (remove1 o l)). exact IH.
Qed.
Lemma split_after_pre : forall o l, In o l -> In o (fst (split_after o l)).
Proof.
  induction l as [|a l IH]; intros I; [destruct I|]. cbn [split_after]. destruct (Nat.eqb_spec a o) as [->|na]; [left; reflexivity|].
  destruct I as [I | I]; [congruence|]. specialize (IH I). destruct (split_after o l). right. exact IH.
Qed.

(** Moving an object to 'finobj'. *)
Definition tofin (st : gst) (o : id) : gst :=
  modify (set_objs st (remove1 o (allgc st)) (o :: finobj st) (tobefnz st)) o (fun b => with_fin b true).

Lemma tofin_heap : forall st o x, heap (tofin st o) x = if Nat.eqb x o then option_map (fun b => with_fin b true) (heap st o) else heap st x.
Proof. intros. unfold tofin. rewrite heap_modify. reflexivity. Qed.

Lemma tofin_inv : forall st o ob, Inv st -> heap st o = Some ob -> In o (allgc st) ->
  (keepinvariant st = false -> unswept st <> [] -> o_col ob = White (cw st) /\ (gcs st = GCSswpallgc -> sweepgc st <> Some (PNext o))) ->
  Inv (tofin st o).
Proof.
  intros st o ob Iv Ho Ia Sw. pose proof Iv as [C [L P]].
  set (s := set_objs st (remove1 o (allgc st)) (o :: finobj st) (tobefnz st)).
  assert (Cs : Core s).
  { apply (Core_lists st s C); reflexivity. }
  set (f := fun b => with_fin b true). pose proof (modify_all s o f) as FF. fold (tofin st o) in FF.
  change (modify s o f) with (tofin st o) in FF. destruct FF as [F1 [F2 [F3 [F4 [F5 [F6 [F7 [F8 [F9 [F10 [F11 [F12 _]]]]]]]]]]]].
  assert (Pm : Permutation (objs st) (objs (tofin st o))).
  { unfold objs. rewrite F6, F7, F8, F9. cbn [allgc finobj tobefnz fixedgc s set_objs]. rewrite (remove1_perm o (allgc st) Ia) at 1.
    cbn [app]. apply Permutation_middle. }
  split; [|split].
  - apply (Core_modify s o f Cs). intros b Hb. apply (okmod_fin s o b true Cs Hb).
  - destruct L as [N H F]. constructor.
    + apply (Permutation_NoDup Pm N).
    + intros x. assert (E : In x (objs (tofin st o)) <-> In x (objs st)) by (split; apply Permutation_in; [symmetry; exact Pm | exact Pm]).
      rewrite E, H, tofin_heap. destruct (Nat.eqb_spec x o) as [->|]; [rewrite Ho; cbn; split; discriminate | reflexivity].
    + intros x xb Hx. rewrite tofin_heap in Hx. rewrite F7, F8. cbn [finobj tobefnz s set_objs]. destruct (Nat.eqb_spec x o) as [->|n].
      * rewrite Ho in Hx. cbn in Hx. inversion Hx. cbn. split; auto.
      * rewrite (F x xb Hx). cbn [app]. split; [intros Q; right; exact Q | intros [Q | Q]; [congruence | exact Q]].
  - destruct (Phase_cases st P) as [[Kp M] | [Kp S]].
    + apply Phase_mark; [rewrite F5; apply (PhaseX_na None st P) | rewrite (keep_gcs s _ F5); exact Kp|].
      assert (Ms : MarkX None s).
      { apply (MarkX_uvs None st s M); try reflexivity; try (apply incl_refl). intros u. unfold openok. cbn [uvs s set_objs]. auto. }
      assert (Fs : fixstr s) by (apply Core_fixstr, Cs).
      assert (Wd : forall x, iswhite (tofin st o) x = iswhite s x) by (intros x; apply (modify_white s o f x); reflexivity).
      apply (Mark_undo o).
      * apply MarkX_modify; [apply MarkX_ex, Ms|]. intros b Hb. cbn. repeat split; auto.
        -- pose proof (q_kwf _ Cs o b Hb) as W. unfold kwf in *. cbn. exact W.
        -- intros m Hm. apply (q_meta _ Cs o b m); [split; [intros Z; change (heap s o = Some b) in Hb; rewrite Hb in Z; discriminate | apply allcw_dead, (mk_cw _ _ Ms)] | exact Hb | exact Hm].
      * intros b Hb Cb. rewrite tofin_heap, Nat.eqb_refl, Ho in Hb. cbn in Hb. inversion Hb; subst b.
        destruct (Mark_black s o ob Ms Fs Ho Cb) as [Q1 [Q2 Q3]]. split; [exact Q1|]. split; [intros b R; rewrite Wd; apply Q2, R|].
        intros u J. specialize (Q3 u J). unfold openok in *. rewrite F2. destruct (uvs s u) as [[]|]; auto. unfold valnw, valiswhite in *. destruct v; auto. rewrite Wd. exact Q3.
      * intros b Hb J m Hm. rewrite tofin_heap, Nat.eqb_refl, Ho in Hb. cbn in Hb. inversion Hb; subst b. rewrite Wd.
        apply (Mark_allweak s o ob Ms Fs Ho); [|exact Hm]. destruct (modify_fields s o f) as [_ [_ [_ [_ [Q _]]]]]. change (modify s o f) with (tofin st o) in Q. rewrite <- Q. exact J.
    + apply Phase_sw; [rewrite (keep_gcs s _ F5); exact Kp|]. intros x xb Hx. rewrite tofin_heap in Hx.
      rewrite F4, F9. cbn [cw fixedgc s set_objs].
      assert (U : forall x, x <> o -> In x (unswept st) -> In x (unswept (tofin st o))).
      { intros y ny J. assert (Sw' := Sw Kp). unfold unswept, behind in *. rewrite F5, F6, F7, F8, F10. cbn [gcs sweepgc allgc finobj tobefnz s set_objs].
        destruct (gcs st) eqn:Gs; try exact J.
        - destruct Sw' as [_ Np]; [intros Z; rewrite Z in J; destruct J|]. specialize (Np eq_refl). apply in_app_or in J. apply in_or_app.
          destruct J as [J | J]; [left | right; cbn [app]; right; exact J]. destruct (sweepgc st) as [[|z]|]; cbn [split_ptr snd] in *; [apply remove1_in; assumption | | exact J].
          apply remove1_behind; [congruence | exact ny | exact J].
        - apply in_app_or in J. apply in_or_app. destruct J as [J | J]; [left | right; exact J]. destruct (sweepgc st) as [[|z]|]; cbn [split_ptr] in *; [right; exact J | | exact J].
          destruct (Nat.eq_dec o z) as [<-|nz]; [|rewrite in_split_after by exact nz; exact J].
          exfalso. rewrite split_after_notin in J; [destruct J|]. pose proof (NoDup_objs st L o). tauto. }
      destruct (Nat.eqb_spec x o) as [->|n].
      * rewrite Ho in Hx. cbn in Hx. inversion Hx; subst xb. cbn [o_col with_fin].
        destruct (list_eq_dec Nat.eq_dec (unswept st) []) as [E | E]; [|destruct (Sw Kp E) as [Q _]; auto].
        destruct (S o ob Ho) as [Q | [Q | Q]]; [rewrite E in Q; destruct Q | auto | auto].
      * destruct (S x xb Hx) as [Q | [Q | Q]]; auto.
Qed.

Lemma checkfinalizer_inv : forall st o m k, Inv st -> alive st o -> kind_of st o = Some k -> k <> KStr -> Inv (checkfinalizer st o m).
Proof.
  intros st o m k Iv A Kd Nk. pose proof Iv as [C [L P]]. destruct (alive_kind st o k Kd) as [ob [Ho Ko]]. unfold checkfinalizer. rewrite Ho.
  destruct (heap st m) as [mb|] eqn:Hm; [|exact Iv]. destruct (o_fin ob) eqn:Ff; cbn [orb]; [exact Iv|]. destruct (o_gc mb); cbn [negb]; [|exact Iv].
  pose proof (nonstr_notfixed st o k C Kd Nk) as Nf.
  assert (Ia : In o (allgc st)).
  { assert (J : In o (objs st)) by (apply (l_heap _ L); congruence). apply in_objs in J. destruct J as [J | [J | [J | J]]]; [exact J | | |contradiction].
    - assert (Z : o_fin ob = true) by (apply (l_fin _ L o ob Ho), in_or_app; auto). congruence.
    - assert (Z : o_fin ob = true) by (apply (l_fin _ L o ob Ho), in_or_app; auto). congruence. }
  destruct (issweepphase st) eqn:Sp.
  2: { apply (tofin_inv st o ob Iv Ho Ia). intros Kp Un. exfalso. apply Un. unfold unswept. unfold issweepphase in Sp. destruct (gcs st); try discriminate; reflexivity. }
  assert (Kp : keepinvariant st = false) by (unfold issweepphase in Sp; unfold keepinvariant; destruct (gcs st); try discriminate; reflexivity).
  destruct (Phase_cases st P) as [[Q _] | [_ S]]; [congruence|].
  pose proof (setcol_fields st o (White (cw st))) as FF. fold (makewhite st o) in FF.
  destruct FF as [E1 [E2 [E3 [E4 [E5 [E6 [E7 [E8 [E9 [E10 _]]]]]]]]]].
  set (w := makewhite st o) in *.
  assert (Hw : forall x, heap w x = if Nat.eqb x o then Some (with_col ob (White (cw st))) else heap st x).
  { intros x. unfold w, makewhite. rewrite heap_setcol, Ho. destruct (Nat.eqb_spec x o) as [->|]; reflexivity. }
  assert (Kw : keepinvariant w = false) by (rewrite (keep_gcs st _ E5); exact Kp).
  assert (Cw : Core w) by (apply Core_makewhite; auto).
  assert (Lw : Lists w) by (apply (Lists_shape st _ L), shape_setcol).
  assert (S' : Swp w).
  { apply (Swp_keep st _ S); try assumption. intros x b Hb. rewrite Hw in Hb.
    destruct (Nat.eqb_spec x o) as [->|]; [inversion Hb; left; reflexivity | right; eauto]. }
  assert (Iw : Inv w) by (split; [exact Cw|]; split; [exact Lw|]; apply Phase_sw; assumption).
  assert (Hwo : heap w o = Some (with_col ob (White (cw st)))) by (rewrite Hw, Nat.eqb_refl; reflexivity).
  assert (Iaw : In o (allgc w)) by (rewrite E6; exact Ia).
  assert (Plain : (gcs w = GCSswpallgc -> sweepgc w <> Some (PNext o)) -> Inv (tofin w o)).
  { intros Q. apply (tofin_inv w o _ Iw Hwo Iaw). intros _ _. split; [cbn; rewrite E4; reflexivity | exact Q]. }
  unfold tofin in Plain.
  destruct (sweepgc w) as [[|x]|] eqn:Gp; [apply Plain; discriminate | | apply Plain; discriminate].
  destruct (gcs w) eqn:Gs; try (apply Plain; discriminate).
  destruct (Nat.eqb_spec x o) as [->|nx]; [|apply Plain; intros _ Z; inversion Z; congruence].
  pose proof (split_after_app o (allgc w)) as Sa. pose proof (split_after_pre o (allgc w) Iaw) as Ip.
  assert (Eq : split_ptr (PNext o) (allgc w) = split_after o (allgc w)) by reflexivity.
  destruct (split_after o (allgc w)) as [pre suf] eqn:Es. cbn [fst snd] in Sa, Ip.
  destruct (NoDup_lists w Lw) as [Nd _]. assert (Ns : NoDup pre /\ NoDup suf /\ forall y, In y pre -> In y suf -> False) by (rewrite <- Sa in Nd; apply NoDup_split in Nd; exact Nd).
  destruct Ns as [Ns1 [Ns2 Ns3]].
  destruct (sweeptolive_ok suf w Cw Ns2 (sweepable_allgc w suf Lw ltac:(intros y J; rewrite <- Sa; apply in_or_app; auto))) as [W E0].
  destruct (sweeptolive w suf) as [[s kept] rest]. cbn [fst snd] in W, E0.
  destruct (frest_fields _ _ (proj1 (w_rest _ _ _ _ _ W))) as [Hn [Hc [Hg [Ha [Hf [Ht [Hx [Hsg _]]]]]]]].
  set (s1 := set_sweepgc (set_objs s (pre ++ kept ++ rest) (finobj s) (tobefnz s)) (next_ptr (PNext o) kept rest)).
  assert (Nkr : NoDup (pre ++ kept ++ rest)).
  { destruct (w_sub _ _ _ _ _ W) as [Nk2 Sub]. rewrite <- Sa in Nd. rewrite <- (app_nil_r (kept ++ rest)).
    apply (NoDup_mid _ pre suf []); [rewrite app_nil_r; exact Nd | exact Nk2 | exact Sub]. }
  assert (Hs1 : heap s1 o = Some (with_col ob (White (cw st)))).
  { cbn. rewrite (w_out _ _ _ _ _ W); [exact Hwo|]. intros J. apply (Ns3 o Ip J). }
  assert (I1 : Inv s1).
  { split; [apply Core_objs; [apply (w_core _ _ _ _ _ W) | auto]|]. split.
    - apply (Lists_shape (set_objs s (pre ++ kept ++ rest) (finobj s) (tobefnz s))); [|apply shape_same; reflexivity]. rewrite Hf, Ht.
      apply (Lists_sweep_allgc w s pre suf kept rest Lw (eq_sym Sa) W).
    - apply Phase_sw; [rewrite <- Kw; unfold keepinvariant; cbn; rewrite Hg; reflexivity|].
      intros y yb Hy. cbn in Hy. unfold unswept. cbn [gcs s1 set_sweepgc set_objs]. rewrite Hg, Gs. unfold behind. cbn [sweepgc allgc finobj tobefnz fixedgc cw s1 set_sweepgc set_objs].
      rewrite Hx, Hc, Hf, Ht. destruct (in_dec Nat.eq_dec y suf) as [J | J].
      + destruct (swept_col _ _ _ _ _ y yb W Hy J) as [Q | Q]; [|auto]. left. apply in_or_app. left.
        destruct (behind_step (PNext o) (allgc w) kept rest y) as [q [-> Jq]]; [cbn [split_ptr]; rewrite Es; exact Nkr | cbn [split_ptr]; rewrite Es; cbn [snd]; intros Z; rewrite Z in J; destruct J | exact Q|].
        cbn [split_ptr] in Jq. rewrite Es in Jq. exact Jq.
      + rewrite (w_out _ _ _ _ _ W y J) in Hy. destruct (S' y yb Hy) as [Q | Q]; [|auto]. unfold unswept, behind in Q. rewrite Gs, Gp, Eq in Q. cbn [snd] in Q.
        apply in_app_or in Q. destruct Q as [Q | Q]; [contradiction|]. left. apply in_or_app. auto. }
  apply (tofin_inv s1 o _ I1 Hs1).
  - cbn. apply in_or_app. auto.
  - intros _ _. split; [cbn; rewrite Hc, E4; reflexivity|]. intros _ Z. cbn in Z.
    unfold next_ptr in Z. destruct rest as [|r rest]; [discriminate|]. destruct kept as [|k0 kept]; [pose proof (E0 eq_refl); discriminate|].
    destruct (rev (k0 :: kept)) as [|y l] eqn:Er; [apply (f_equal (@length _)) in Er; rewrite rev_length in Er; discriminate|]. inversion Z; subst y.
    assert (J : In o (k0 :: kept)) by (apply in_rev; rewrite Er; left; reflexivity).
    apply (Ns3 o Ip). apply (proj2 (w_sub _ _ _ _ _ W)). apply in_or_app. auto.
Qed.

Lemma meta_inv : forall st o mt, Inv st -> legal st (MMeta o mt) -> covered st (MMeta o mt) -> Inv (step st (MMeta o mt)).
Proof.
  intros st o mt Iv [R [Kh Rm]] Cv. pose proof Iv as [C [L P]]. cbn [step]. unfold setmeta. pose proof (alive_reach st C o R) as A.
  destruct (has_kind_heap _ _ _ Kh) as [ob [Ho Ko]].
  assert (Kd : kind_of st o = Some (o_kind ob)) by (unfold kind_of; rewrite Ho; reflexivity).
  assert (Ns : o_kind ob <> KStr) by (cbn in Ko; intuition congruence).
  set (f := fun b => with_meta b mt).
  assert (Am : forall m, mt = Some m -> alive st m /\ kind_of st m = Some KTable).
  { intros m ->. destruct Rm as [Rm [k [Km [<- | []]]]]. split; [apply (alive_reach st C m Rm) | exact Km]. }
  destruct (open_mod st o f (fun b => mt = Some b) Iv A) as [X1 X2].
  - intros b Hb. rewrite Ho in Hb. inversion Hb; subst b. split; [|reflexivity]. constructor; cbn; auto.
    + pose proof (q_kwf _ C o ob Ho) as W. unfold kwf in *. cbn. cbn in Ko. destruct Ko as [Ko | [Ko | [Ko | []]]]; rewrite <- Ko in *; exact W.
    + intros b [J | J]; cbn in J; [right; apply (Am b J) | left; right; exact J].
  - reflexivity.
  - intros b Hb. rewrite Ho in Hb. inversion Hb; subst b. right. split; [|split; [auto|]].
    + intros _ _ b [J | J]; cbn in J; [auto | left; right; exact J].
    + intros Kp J m Hm. cbn in Hm. subst mt. right. apply (Cv Kp J).
  - destruct mt as [m|].
    + assert (A' : alive (modify st o f) o) by (apply alive_modify_col; [reflexivity | exact A]).
      destruct (barrier_ok (modify st o f) o m _ nobody X1 X2 A') as [Y1 Y2].
      { replace (fixedgc (modify st o f)) with (fixedgc st) by (symmetry; apply modify_all). apply (nonstr_notfixed st o _ C Kd Ns). }
      { intros b E. inversion E. auto. }
      pose proof (InvX_undo o _ Y1 Y2) as Ib. set (s := barrier (modify st o f) o m) in *.
      assert (Ks : kind_of s o = Some (o_kind ob) /\ alive s o).
      { destruct X1 as [C1 [L1 P1]].
        assert (Kd1 : kind_of (modify st o f) o = Some (o_kind ob)) by (rewrite modify_kind; [exact Kd | reflexivity]).
        unfold s, barrier. destruct (isblack (modify st o f) o && iswhite (modify st o f) m) eqn:Bw; [|auto].
        apply andb_prop in Bw. destruct Bw as [Bk Wm].
        destruct (PhaseX_cases _ _ P1) as [[Kp M] | [Kp S]]; rewrite Kp.
        - destruct (mark_obj_ok (nextid (modify st o f)) _ m (Core_typ _ _ C1 M) Wm (cwhite_le_next _)) as [Mr _]. split.
          + destruct (alive_kind _ _ _ Kd1) as [b1 [Hb1 Kb1]]. destruct (r_some _ _ Mr o b1 Hb1) as [b2 [Hb2 [Ww _]]]. unfold kind_of. rewrite Hb2, Ww. cbn. rewrite Kb1. reflexivity.
          + apply (alive_mrel _ _ o (mk_cw _ _ M) Mr A').
        - destruct (alive_kind _ _ _ Kd1) as [b1 [Hb1 Kb1]]. unfold kind_of, alive, isdead, makewhite. rewrite heap_setcol, Nat.eqb_refl, Hb1. cbn. split; [rewrite Kb1; reflexivity|].
          split; [discriminate|]. pose proof (setcol_fields (modify st o f) o (White (cw (modify st o f)))) as [_ [_ [_ [Q _]]]]. rewrite Q. destruct (cw (modify st o f)); reflexivity. }
      destruct Ks as [Ks As]. apply (checkfinalizer_inv s o m _ Ib As Ks Ns).
    + apply (InvX_undo o _ X1). intros Kp b Hb. destruct (X2 Kp b Hb) as [Z1 Z2]. split; [|exact Z2]. intros Cb. destruct (Z1 Cb) as [Y1 [Y2 Y3]].
      split; [exact Y1|]. split; [|exact Y3]. intros x Rx. destruct (Y2 x Rx) as [Q | Q]; [discriminate | auto].
Qed.

(** ** Every event *)

Lemma step_inv : forall st e, Inv st -> legal st e -> covered st e -> Inv (step st e).
Proof.
  intros st e Iv Lg Cv. destruct e.
  - apply (collector_inv st _ Iv). eauto.
  - apply (collector_inv st _ Iv). auto.
  - apply (collector_inv st _ Iv). auto.
  - apply (new_inv st k vs us Iv Lg).
  - apply (slot_inv st th i v Iv Lg).
  - apply (top_inv st th n Iv Lg).
  - apply (val_inv st o i v Iv Lg).
  - apply (grow_inv st o n Iv Lg).
  - apply (hash_inv st t k v Iv Lg).
  - apply (rebuild_inv st t vs h Iv Lg).
  - apply (meta_inv st o mt Iv Lg Cv).
  - apply (mode_inv st mt md g Iv Lg).
  - apply (cache_inv st p cl Iv Lg).
  - apply (findupv_inv st th i Iv Lg).
  - apply (setupv_inv st u v Iv Lg).
  - apply (close_inv st th us Iv Lg).
  - apply (join_inv st cl i u Iv Lg).
  - apply (cur_inv st th Iv Lg).
  - apply (reg_inv st v Iv Lg).
  - apply (mt_inv st i m Iv Lg).
  - apply (intern_inv st s Iv Lg).
  - apply (strcache_inv st i s Iv Lg).
  - apply (undump_inv st p v Iv Lg Cv).
Qed.

Lemma init_heap : forall o ob, heap init_state o = Some ob ->
  (o = 0 /\ ob = mkobj KThread (White false) false None (false, false) false [] [] [] None 0 []) \/
  (o = 1 /\ ob = blank KTable false [] []) \/
  (o = 2 /\ ob = mkobj KStr Gray false None (false, false) false [] [] [] None 0 []).
Proof.
  intros o ob H. destruct o as [|[|[|o]]]; cbn in H; inversion H; auto.
Qed.

Lemma init_edge : forall a b, ~ edge init_state a b.
Proof.
  intros a b E. destruct E as [ob H Q | ob H Q | ob v H Q | ob k H Q | ob H Q | ob u H Q _ | ob u th i t tb H Q _ _ _];
    apply init_heap in H; destruct H as [[_ ->] | [[_ ->] | [_ ->]]]; cbn in Q; try discriminate; destruct Q.
Qed.

Lemma init_inv : Inv init_state.
Proof.
  assert (A : forall o, o <= 2 -> alive init_state o).
  { intros o H. unfold alive, isdead. destruct o as [|[|[|o]]]; cbn; try (split; [discriminate | reflexivity]). lia. }
  split; [|split].
  - constructor.
    + intros o ob H. apply init_heap in H. destruct H as [[_ ->] | [[_ ->] | [_ ->]]]; cbn; auto 10.
    + intros o ob m _ H Q. apply init_heap in H. destruct H as [[_ ->] | [[_ ->] | [_ ->]]]; discriminate.
    + intros o ob H. cbn. apply init_heap in H. destruct H as [[-> _] | [[-> _] | [-> _]]]; lia.
    + intros u th i t H. discriminate.
    + intros o ob u H Q. apply init_heap in H. destruct H as [[_ ->] | [[_ ->] | [_ ->]]]; destruct Q.
    + intros o ob u H Q. apply init_heap in H. destruct H as [[_ ->] | [[_ ->] | [_ ->]]]; destruct Q.
    + reflexivity.
    + intros o [<- | []]. split; reflexivity.
    + left. reflexivity.
    + reflexivity.
    + intros a b _ E. elim (init_edge a b E).
    + intros o R. apply A. destruct R as [R | R | R | R | R | R | R | R]; cbn [mainth curth registry mts tobefnz strcache fixedgc memerr init_state] in R.
      * subst. lia.
      * subst. lia.
      * inversion R. lia.
      * exfalso. apply repeat_spec in R. discriminate.
      * destruct R.
      * apply repeat_spec in R. subst. lia.
      * destruct R as [<- | []]. lia.
      * subst. lia.
    + intros o [].
    + intros o ob H Q. apply init_heap in H. destruct H as [[_ ->] | [[_ ->] | [_ ->]]]; elim Q; reflexivity.
  - constructor.
    + cbn. repeat constructor; cbn; intuition lia.
    + intros o. cbn. split; [intros [<- | [<- | [<- | []]]]; discriminate|]. destruct o as [|[|[|o]]]; auto 6.
    + intros o ob H. cbn. apply init_heap in H. destruct H as [[_ ->] | [[_ ->] | [_ ->]]]; cbn; split; try discriminate; intros [].
  - cbn. intros o ob H. apply init_heap in H. destruct H as [[_ ->] | [[_ ->] | [-> ->]]]; cbn; auto.
Qed.

Lemma exec_inv : forall st st', exec covered st st' -> Inv st -> Inv st'.
Proof. intros st st' E. induction E as [st | st e st' Lg Cv E IH]; intros I; [exact I|]. apply IH, (step_inv st e I Lg Cv). Qed.

Lemma run_inv : forall st, exec covered init_state st -> Inv st.
Proof. intros st E. apply (exec_inv _ _ E init_inv). Qed.
