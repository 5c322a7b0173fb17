(** No step brings back a freed object (identities are never used again), and the
    kind of an object never changes. *)
From Coq Require Import ZArith List Bool Arith Lia.
From Verif Require Import Base Gc_model Gc_spec Gc_facts Gc_tri Gc_core.
Import ListNotations.
Local Open Scope nat_scope.

Definition hk (st st' : gst) : Prop := forall x, heap st' x = None \/ option_map o_kind (heap st' x) = option_map o_kind (heap st x).
Definition hn (st st' : gst) : Prop := hk st st' /\ nextid st' = nextid st /\ cw st' = cw st.
Lemma hk_refl : forall st, hk st st. Proof. intros st x. right. reflexivity. Qed.
Lemma hk_trans : forall a b c, hk a b -> hk b c -> hk a c.
Proof. intros a b c A B x. destruct (B x) as [E|E]; [left; exact E|]. destruct (A x) as [F|F]; [|right; congruence]. rewrite F in E. left. destruct (heap c x); [discriminate | reflexivity]. Qed.
Lemma hk_none : forall a b x, hk a b -> heap a x = None -> heap b x = None.
Proof. intros a b x A H. destruct (A x) as [E|E]; [exact E|]. rewrite H in E. destruct (heap b x); [discriminate | reflexivity]. Qed.
Lemma hn_refl : forall st, hn st st. Proof. intros. split; [apply hk_refl | auto]. Qed.
Lemma hn_trans : forall a b c, hn a b -> hn b c -> hn a c.
Proof. intros a b c [A [A2 A3]] [B [B2 B3]]. split; [exact (hk_trans _ _ _ A B) | split; congruence]. Qed.
Lemma hn_same : forall st st', heap st' = heap st -> nextid st' = nextid st -> cw st' = cw st -> hn st st'.
Proof. intros st st' H N C. split; [intros x; rewrite H; auto | split; assumption]. Qed.
Lemma hn_modify : forall st o f, (forall b, o_kind (f b) = o_kind b) -> hn st (modify st o f).
Proof.
  intros st o f F. split; [|rewrite modify_rest; split; reflexivity]. intros x. right. rewrite heap_modify. destruct (Nat.eqb_spec x o) as [->|]; [|reflexivity].
  destruct (heap st o) as [b|]; cbn; [rewrite F|]; reflexivity.
Qed.
Ltac hnm := apply hn_modify; reflexivity.
Lemma hn_post : forall st s f, hn st s -> hn s (f s) -> hn st (f s).
Proof. intros. eapply hn_trans; eassumption. Qed.
Lemma hn_setcol : forall st o c, hn st (setcol st o c). Proof. intros. hnm. Qed.
Lemma hn_link_gray : forall st o, hn st (link_gray st o).
Proof. intros. eapply hn_trans; [|apply hn_setcol]. apply hn_same; reflexivity. Qed.
Lemma hn_link_grayagain : forall st o, hn st (link_grayagain st o).
Proof. intros. eapply hn_trans; [|apply hn_setcol]. apply hn_same; reflexivity. Qed.
Lemma hn_link_weak : forall st o, hn st (link_weak st o).
Proof. intros. eapply hn_trans; [|apply hn_setcol]. apply hn_same; reflexivity. Qed.
Lemma hn_link_allweak : forall st o, hn st (link_allweak st o).
Proof. intros. eapply hn_trans; [|apply hn_setcol]. apply hn_same; reflexivity. Qed.
Lemma hn_link_ephemeron : forall st o, hn st (link_ephemeron st o).
Proof. intros. eapply hn_trans; [|apply hn_setcol]. apply hn_same; reflexivity. Qed.
Lemma hn_mark_meta : forall st m, hn st (mark_meta st m).
Proof. intros st [m|]; cbn; [destruct (iswhite st m); [apply hn_link_gray|]|]; apply hn_refl. Qed.
Lemma hn_mark_obj : forall n st o, hn st (mark_obj n st o).
Proof.
  induction n as [|n IH]; intros st o; cbn [mark_obj]; [apply hn_refl|]. destruct (heap st o) as [ob|]; [|apply hn_refl].
  assert (P : hn st (set2black (mark_meta st (o_meta ob)) o)) by (eapply hn_trans; [apply hn_mark_meta | hnm]).
  assert (U : hn st (let st1 := set2black (mark_meta st (o_meta ob)) o in
          match o_vals ob with VObj u :: _ => if iswhite st1 u then mark_obj n st1 u else st1 | _ => st1 end)).
  { cbn. destruct (o_vals ob) as [|[| |u] l]; try exact P. destruct (iswhite _ u); [|exact P]. eapply hn_trans; [exact P | apply IH]. }
  destruct (o_kind ob); try apply hn_link_gray; [hnm | exact U | exact U].
Qed.
Lemma hn_mark : forall st o, hn st (mark st o).
Proof. intros. unfold mark. destruct (iswhite st o); [apply hn_mark_obj | apply hn_refl]. Qed.
Lemma hn_mark_val : forall st v, hn st (mark_val st v).
Proof. intros st [| |o]; cbn; try apply hn_refl. apply hn_mark. Qed.
Lemma hn_mark_key : forall st v, hn st (mark_key st v).
Proof. intros st [|o|]; cbn; try apply hn_refl. apply hn_mark. Qed.
Lemma hn_mark_opt : forall st v, hn st (mark_opt st v).
Proof. intros st [o|]; cbn; [apply hn_mark | apply hn_refl]. Qed.
Lemma hn_fold : forall (A : Type) (f : gst -> A -> gst), (forall st a, hn st (f st a)) -> forall l st, hn st (fold_left f l st).
Proof. intros A f F l. induction l as [|a l IH]; intros st; cbn; [apply hn_refl|]. eapply hn_trans; [apply F | apply IH]. Qed.
Lemma hn_mark_vals : forall l st, hn st (mark_vals st l).
Proof. intros. apply hn_fold, hn_mark_val. Qed.
Lemma hn_iscleared : forall st o, hn st (fst (iscleared st o)).
Proof. intros st [o|]; cbn; [|apply hn_refl]. destruct (kind_of st o) as [[]|]; cbn; try apply hn_refl. apply hn_mark. Qed.
Ltac pr t := let K := fresh "K" in assert (K := t); revert K; match type of t with hn _ (fst (fst (fst ?x))) => destruct x as [[[? ?] ?] ?] | hn _ (fst (fst ?x)) => destruct x as [[? ?] ?] | hn _ (fst ?x) => destruct x end; cbn [fst snd]; intros K; eapply hn_trans; [exact K|]; clear K.
Lemma hn_weakvalue_loop : forall h st c, hn st (fst (weakvalue_loop st h c)).
Proof.
  induction h as [|[k v] h IH]; intros st c; cbn; [apply hn_refl|]. destruct (isnil v); [apply IH|]. eapply hn_trans; [apply (hn_mark_key st k)|].
  destruct c; [apply IH|]. pr (hn_iscleared (mark_key st k) (vobj v)). apply IH.
Qed.
Lemma hn_sethash : forall st o h, hn st (sethash st o h). Proof. intros. hnm. Qed.
Lemma hn_traverseweakvalue : forall st o ob, hn st (traverseweakvalue st o ob).
Proof.
  intros. unfold traverseweakvalue. pr (hn_weakvalue_loop (o_hash ob) st (negb (Nat.eqb (length (o_vals ob)) 0))).
  eapply hn_trans; [apply hn_sethash|]. destruct (_ && _); [apply hn_link_weak | apply hn_link_grayagain].
Qed.
Lemma hn_eph_arr : forall l st m, hn st (fst (eph_arr st l m)).
Proof. induction l as [|v l IH]; intros st m; cbn; [apply hn_refl|]. destruct v as [| |b]; try apply IH. destruct (iswhite st b); [|apply IH]. eapply hn_trans; [apply hn_mark | apply IH]. Qed.
Lemma hn_eph_hash : forall h st a b c, hn st (fst (fst (fst (eph_hash st h a b c)))).
Proof.
  induction h as [|[k v] h IH]; intros st a b c; cbn; [apply hn_refl|]. destruct (isnil v); [apply IH|]. pr (hn_iscleared st (kobj k)).
  destruct b0; [apply IH|]. destruct (valiswhite g v); [|apply IH]. eapply hn_trans; [apply hn_mark_val | apply IH].
Qed.
Lemma hn_traverseephemeron : forall st o ob, hn st (fst (traverseephemeron st o ob)).
Proof.
  intros. unfold traverseephemeron. pr (hn_eph_arr (o_vals ob) st false). pr (hn_eph_hash (o_hash ob) g b false false).
  eapply hn_trans; [apply (hn_sethash g0 o (clean (o_hash ob)))|]. destruct (is_propagate _); [apply hn_link_grayagain|]. destruct b2; [apply hn_link_ephemeron|]. destruct b1; [apply hn_link_allweak | apply hn_refl].
Qed.
Lemma hn_traversestrongtable : forall st o ob, hn st (traversestrongtable st o ob).
Proof.
  intros. unfold traversestrongtable. eapply hn_trans; [apply (hn_mark_vals (o_vals ob))|]. eapply hn_trans; [|apply hn_sethash]. apply hn_fold. intros s [k v].
  unfold mark_entry. cbn. destruct (isnil v); [apply hn_refl|]. eapply hn_trans; [apply hn_mark_key | apply hn_mark_val].
Qed.
Lemma hn_traversetable : forall st o ob, hn st (traversetable st o ob).
Proof.
  intros. unfold traversetable. eapply hn_trans; [apply (hn_mark_meta st (o_meta ob))|]. destruct (weakmode st ob) as [[|] [|]];
    [apply hn_link_allweak | apply hn_traverseephemeron | apply hn_traverseweakvalue | apply hn_traversestrongtable].
Qed.
Lemma hn_set_uvs : forall st f n, hn st (set_uvs st f n). Proof. intros. apply hn_same; reflexivity. Qed.
Lemma hn_trav_upv : forall st u, hn st (trav_upv st u).
Proof. intros. unfold trav_upv. destruct (uvs st u) as [[th i t|v]|]; [destruct (is_atomic _); [apply hn_mark_val | apply hn_set_uvs] | apply hn_mark_val | apply hn_refl]. Qed.
Lemma hn_propagatemark : forall st, hn st (propagatemark st).
Proof.
  intros st. unfold propagatemark. destruct (gray st) as [|o g]; [apply hn_refl|]. eapply hn_trans; [apply (hn_same st (set_gray st g)); reflexivity|].
  eapply hn_trans; [apply (hn_setcol _ o Black)|]. cbv zeta. fold (set2black (set_gray st g) o). set (s := set2black (set_gray st g) o). clearbody s.
  destruct (heap s o) as [ob|]; [|apply hn_refl]. destruct (o_kind ob); try apply hn_refl.
  - apply hn_traversetable.
  - eapply hn_trans; [apply (hn_mark_vals (o_vals ob))|]. apply hn_fold, hn_trav_upv.
  - apply hn_mark_vals.
  - unfold traverseproto. eapply hn_trans; [|apply hn_mark_vals]. destruct (o_cache ob) as [c|]; [|apply hn_refl]. destruct (iswhite s c); [hnm | apply hn_refl].
  - unfold traversethread. 
    assert (A : hn s (if is_propagate (gcs s) then link_grayagain s o else s)) by (destruct (is_propagate _); [apply hn_link_grayagain | apply hn_refl]).
    eapply hn_trans; [exact A|]. set (s1 := if is_propagate (gcs s) then link_grayagain s o else s). clearbody s1. clear A.
    eapply hn_trans; [apply (hn_mark_vals (firstn (o_top ob) (o_vals ob)))|]. cbv zeta. set (s2 := mark_vals s1 (firstn (o_top ob) (o_vals ob))). clearbody s2.
    assert (A : hn s2 (fold_left (fun s u => mark_val s (uv_val s u)) (o_open ob) s2)) by (apply hn_fold; intros; apply hn_mark_val).
    eapply hn_trans; [exact A|]. set (s3 := fold_left (fun s u => mark_val s (uv_val s u)) (o_open ob) s2). clearbody s3. destruct (is_atomic _); [|apply hn_refl].
    set (s4 := modify s3 o _). assert (B : hn s3 s4) by hnm. eapply hn_trans; [exact B|]. clearbody s4. destruct (existsb _ _); [apply hn_refl|]. destruct (o_open ob); [apply hn_refl | apply hn_same; reflexivity].
Qed.
Lemma hn_propagate_n : forall n st, hn st (propagate_n n st).
Proof. induction n as [|n IH]; intros st; cbn; [apply hn_refl|]. destruct (gray st); [apply hn_refl|]. eapply hn_trans; [apply hn_propagatemark | apply IH]. Qed.
Lemma hn_propagateall : forall st, hn st (propagateall st). Proof. intros. apply hn_propagate_n. Qed.
Lemma hn_converge_pass : forall l st b, hn st (fst (converge_pass st l b)).
Proof.
  induction l as [|o l IH]; intros st b; cbn [converge_pass]; [apply hn_refl|]. eapply hn_trans; [apply (hn_setcol st o Black)|]. cbv zeta.
  fold (set2black st o). set (s := set2black st o). clearbody s. destruct (heap s o) as [ob|]; [|apply IH]. pr (hn_traverseephemeron s o ob).
  destruct b0; [|apply IH]. eapply hn_trans; [apply hn_propagateall | apply IH].
Qed.
Lemma hn_converge_n : forall n st, hn st (converge_n n st).
Proof.
  induction n as [|n IH]; intros st; cbn [converge_n]; [apply hn_refl|]. eapply hn_trans; [apply (hn_same st (set_ephemeron st [])); reflexivity|].
  pr (hn_converge_pass (ephemeron st) (set_ephemeron st []) false). destruct b; [apply IH | apply hn_refl].
Qed.
Lemma hn_converge : forall st, hn st (convergeephemerons st). Proof. intros. apply hn_converge_n. Qed.
Lemma hn_ck_loop : forall h st, hn st (fst (ck_loop st h)).
Proof.
  induction h as [|[k v] h IH]; intros st; cbn; [apply hn_refl|]. destruct (isnil v).
  - pr (IH st). apply hn_refl.
  - pr (hn_iscleared st (kobj k)). pr (IH g). apply hn_refl.
Qed.
Lemma hn_cv_arr : forall h st, hn st (fst (cv_arr st h)).
Proof. induction h as [|v h IH]; intros st; cbn; [apply hn_refl|]. pr (hn_iscleared st (vobj v)). pr (IH g). apply hn_refl. Qed.
Lemma hn_cv_loop : forall h st, hn st (fst (cv_loop st h)).
Proof. induction h as [|[k v] h IH]; intros st; cbn; [apply hn_refl|]. pr (hn_iscleared st (vobj v)). pr (IH g). apply hn_refl. Qed.
Lemma hn_clearbykeys : forall st l, hn st (clearbykeys st l).
Proof.
  intros. apply hn_fold. intros s o. unfold clearkeys1. destruct (heap s o); [|apply hn_refl]. pr (hn_ck_loop (o_hash o0) s). apply hn_sethash.
Qed.
Lemma hn_clearbyvalues : forall st l, hn st (clearbyvalues st l).
Proof.
  intros. apply hn_fold. intros s o. unfold clearvals1. destruct (heap s o) as [ob|]; [|apply hn_refl]. pr (hn_cv_arr (o_vals ob) s). pr (hn_cv_loop (o_hash ob) g). hnm.
Qed.
Lemma hn_remarkupvals : forall st, hn st (remarkupvals st).
Proof.
  assert (R : forall s u, hn s (remark_upv s u)).
  { intros s u. unfold remark_upv. destruct (uvs s u) as [[th i [|]|v]|]; try apply hn_refl. eapply hn_trans; [apply (hn_mark_val s (uv_val s u)) | apply hn_set_uvs]. }
  assert (L : forall l st, hn st (fst (remark_loop st l))).
  { induction l as [|t l IH]; intros st; cbn; [apply hn_refl|]. destruct (heap st t) as [ob|]; [|apply IH]. destruct (_ && _); [pr (IH st); apply hn_refl|].
    eapply hn_trans; [apply hn_fold, R | apply IH]. }
  intros st. unfold remarkupvals. pr (L (twups st) st). apply hn_same; reflexivity.
Qed.
Lemma hn_markmt : forall st, hn st (markmt st). Proof. intros. apply hn_fold, hn_mark_opt. Qed.
Lemma hn_markbeingfnz : forall st, hn st (markbeingfnz st). Proof. intros. apply hn_fold, hn_mark. Qed.
Lemma hn_restart : forall st, hn st (restartcollection st).
Proof.
  intros st. unfold restartcollection. eapply hn_trans; [apply (hn_same st (set_lists st [] [] [] [] [])); reflexivity|]. cbv zeta.
  eapply hn_trans; [apply hn_mark|]. eapply hn_trans; [apply hn_mark_val|]. eapply hn_trans; [apply hn_markmt|]. apply hn_markbeingfnz.
Qed.
Lemma hn_step : forall (f : gst -> gst) st s, hn st s -> (forall s', hn s' (f s')) -> hn st (f s).
Proof. intros f st s A F. eapply hn_trans; [exact A | apply F]. Qed.
Lemma hn_set_gcs : forall st g, hn st (set_gcs st g). Proof. intros. apply hn_same; reflexivity. Qed.
Lemma hn_set_gray : forall st g, hn st (set_gray st g). Proof. intros. apply hn_same; reflexivity. Qed.
Lemma hn_set_grayagain : forall st g, hn st (set_grayagain st g). Proof. intros. apply hn_same; reflexivity. Qed.
Lemma hn_separate : forall st, hn st (separatetobefnz st). Proof. intros. apply hn_same; reflexivity. Qed.
Lemma hn_clearcache : forall st, hn st (clearcache st). Proof. intros. apply hn_same; reflexivity. Qed.
Lemma hn_atomic_mark : forall st, hn st (atomic_mark st).
Proof.
  intros st. unfold atomic_mark. cbv zeta. apply (hn_step convergeephemerons); [|apply hn_converge]. apply (hn_step propagateall); [|apply hn_propagateall].
  apply (hn_step (fun s => set_gray s (grayagain st))); [|intros; apply hn_set_gray]. apply (hn_step propagateall); [|apply hn_propagateall].
  apply (hn_step remarkupvals); [|apply hn_remarkupvals]. apply (hn_step propagateall); [|apply hn_propagateall]. apply (hn_step markmt); [|apply hn_markmt].
  apply (hn_step (fun s => mark_val s (registry s))); [|intros; apply hn_mark_val]. apply (hn_step (fun s => mark s (curth s))); [|intros; apply hn_mark].
  apply (hn_step (fun s => set_gcs s GCSatomic)); [|intros; apply hn_set_gcs]. apply hn_set_grayagain.
Qed.
Lemma hn_atomic_fin : forall st, hn st (atomic_fin st).
Proof.
  intros st. unfold atomic_fin. cbv zeta. set (s1 := clearbyvalues st (weak st)). assert (A1 : hn st s1) by apply hn_clearbyvalues. clearbody s1.
  set (s2 := clearbyvalues s1 (allweak s1)). assert (A2 : hn st s2) by (eapply hn_trans; [exact A1 | apply hn_clearbyvalues]). clearbody s2.
  apply (hn_step clearcache); [|apply hn_clearcache].
  apply (hn_step (fun s => clearbyvalues s (upto (allweak s) (allweak s2)))); [|intros; apply hn_clearbyvalues].
  apply (hn_step (fun s => clearbyvalues s (upto (weak s) (weak s2)))); [|intros; apply hn_clearbyvalues].
  apply (hn_step (fun s => clearbykeys s (allweak s))); [|intros; apply hn_clearbykeys].
  apply (hn_step (fun s => clearbykeys s (ephemeron s))); [|intros; apply hn_clearbykeys].
  apply (hn_step convergeephemerons); [|apply hn_converge]. apply (hn_step propagateall); [|apply hn_propagateall].
  apply (hn_step markbeingfnz); [|apply hn_markbeingfnz]. apply (hn_step separatetobefnz); [|apply hn_separate]. exact A2.
Qed.
Lemma hn_atomic1 : forall st, hn st (atomic_fin (atomic_mark st)).
Proof. intros. apply (hn_step atomic_fin); [apply hn_atomic_mark | apply hn_atomic_fin]. Qed.
Definition flip (s : gst) : gst := set_cw s (negb (cw s)).
Lemma atomic_flip : forall st, atomic st = flip (atomic_fin (atomic_mark st)).
Proof. reflexivity. Qed.
Lemma cw_flip : forall s, cw (flip s) = negb (cw s). Proof. reflexivity. Qed.
Lemma cw_atomic : forall st, cw (atomic st) = negb (cw st).
Proof. intros st. rewrite atomic_flip, cw_flip. destruct (hn_atomic1 st) as [_ [_ ->]]. reflexivity. Qed.
(** Without the current white. *)
Definition hn0 (st st' : gst) : Prop := hk st st' /\ nextid st' = nextid st.
Lemma hn0_hn : forall st st', hn st st' -> hn0 st st'. Proof. intros st st' [A [B _]]. split; assumption. Qed.
Lemma hn0_trans : forall a b c, hn0 a b -> hn0 b c -> hn0 a c.
Proof. intros a b c [A A2] [B B2]. split; [exact (hk_trans _ _ _ A B) | congruence]. Qed.
Lemma hn0_flip : forall s, hn0 s (flip s). Proof. intros s. split; [intros x; right; reflexivity | reflexivity]. Qed.
Lemma hn_atomic : forall st, hn0 st (atomic st).
Proof. intros st. rewrite atomic_flip. eapply hn0_trans; [apply hn0_hn, hn_atomic1 | apply hn0_flip]. Qed.
(** ** Sweep *)
Lemma hn_free : forall st o, hn st (freeobj st o).
Proof.
  intros st o. unfold freeobj. destruct (heap st o) as [ob|]; [|apply hn_refl].
  assert (A : hn st (match o_kind ob with KThread => fold_left close_upv (o_open ob) st | _ => st end)).
  { destruct (o_kind ob); try apply hn_refl. apply hn_fold. intros. apply hn_set_uvs. }
  eapply hn_trans; [exact A|]. set (s := match o_kind ob with KThread => _ | _ => _ end). clearbody s. split; [|split; reflexivity]. intros x. cbn. destruct (Nat.eqb x o); [left | right]; reflexivity.
Qed.
Lemma hn_sweeplist : forall l n st, hn st (fst (fst (sweeplist n st l))).
Proof.
  induction l as [|o l IH]; intros n st; destruct n; cbn; try apply hn_refl. destruct (isdead st o); [eapply hn_trans; [apply hn_free | apply IH]|].
  eapply hn_trans; [apply (hn_setcol st o (White (cw st)))|]. fold (makewhite st o). pr (IH n (makewhite st o)). apply hn_refl.
Qed.
Lemma hn_sweeptolive : forall l st, hn st (fst (fst (sweeptolive st l))).
Proof. induction l as [|o l IH]; intros st; cbn; [apply hn_refl|]. destruct (isdead st o); [eapply hn_trans; [apply hn_free | apply IH]|]. apply hn_setcol. Qed.
Lemma hn_entersweep : forall st, hn st (entersweep st).
Proof.
  intros st. unfold entersweep. eapply hn_trans; [apply (hn_same st (set_gcs st GCSswpallgc)); reflexivity|]. cbv zeta. pr (hn_sweeptolive (allgc (set_gcs st GCSswpallgc)) (set_gcs st GCSswpallgc)). apply hn_same; reflexivity.
Qed.
Lemma hn_set_swlist : forall st l, hn st (set_swlist st l).
Proof. intros. unfold set_swlist. destruct (gcs st); apply hn_same; reflexivity. Qed.
Lemma hn_sweepstep : forall st n p, hn st (sweepstep st n p).
Proof.
  intros st n p. unfold sweepstep. destruct (sweepgc st) as [q|]; [|apply hn_same; reflexivity]. destruct (split_ptr q (swlist st)) as [pre suf].
  pr (hn_sweeplist suf GCSWEEPMAX st). eapply hn_trans; [apply hn_set_swlist|]. apply hn_same; reflexivity.
Qed.
Lemma hn_push : forall st v, hn st (push st v). Proof. intros. hnm. Qed.
Lemma hn_gctm : forall st, hn st (gctm st).
Proof.
  intros st. unfold gctm. destruct (tobefnz st) as [|o l]; [apply hn_refl|]. eapply hn_trans; [apply (hn_same st (set_objs st (o :: allgc st) (finobj st) l)); reflexivity|]. cbv zeta.
  set (s := set_objs st (o :: allgc st) (finobj st) l). clearbody s. set (s1 := modify s o _). assert (B : hn s s1) by hnm. eapply hn_trans; [exact B|]. clearbody s1.
  assert (A : hn s1 (if issweepphase s1 then makewhite s1 o else s1)) by (destruct (issweepphase s1); [apply hn_setcol | apply hn_refl]).
  eapply hn_trans; [exact A|]. set (s2 := if issweepphase s1 then _ else _). clearbody s2. destruct (heap s2 o); [|apply hn_refl]. destruct (gcfield s2 o0); [apply hn_push | apply hn_refl].
Qed.
Lemma hn_singlestep : forall em st, hn0 st (singlestep em st).
Proof.
  intros em st. unfold singlestep. destruct (gcs st); try (apply hn0_hn, hn_same; reflexivity); try (apply hn0_hn, hn_sweepstep).
  - destruct (gray st); [apply hn0_hn, hn_same; reflexivity | apply hn0_hn, hn_propagatemark].
  - eapply hn0_trans; [apply hn_atomic | apply hn0_hn, hn_entersweep].
  - destruct (tobefnz st); [apply hn0_hn, hn_same; reflexivity|]. destruct em; [apply hn0_hn, hn_same; reflexivity | apply hn0_hn, hn_gctm].
  - apply hn0_hn. eapply hn_trans; [apply hn_restart | apply hn_set_gcs].
Qed.
(** ** Stores *)
Lemma hn_barrier : forall st o v, hn st (barrier st o v).
Proof. intros. unfold barrier. destruct (_ && _); [|apply hn_refl]. destruct (keepinvariant st); [apply hn_mark_obj | apply hn_setcol]. Qed.
Lemma hn_barrier_val : forall st o v, hn st (barrier_val st o v). Proof. intros st o []; cbn; try apply hn_refl. apply hn_barrier. Qed.
Lemma hn_back : forall st o v, hn st (barrierback st o v).
Proof. intros. unfold barrierback. destruct (_ && _); [apply hn_link_grayagain | apply hn_refl]. Qed.
Lemma hn_back_val : forall st o v, hn st (barrierback_val st o v). Proof. intros st o []; cbn; try apply hn_refl. apply hn_back. Qed.
Lemma hn_back_key : forall st o v, hn st (barrierback_key st o v). Proof. intros st o []; cbn; try apply hn_refl. apply hn_back. Qed.
Lemma hn_upvalbarrier : forall st u, hn st (upvalbarrier st u).
Proof. intros. unfold upvalbarrier. destruct (uvs st u) as [[| [| |x]]|]; try apply hn_refl. destruct (keepinvariant st); [apply hn_mark | apply hn_refl]. Qed.
Lemma hn_checkfinalizer : forall st o m, hn st (checkfinalizer st o m).
Proof.
  intros st o m. unfold checkfinalizer. destruct (heap st o); [|apply hn_refl]. destruct (heap st m); [|apply hn_refl]. destruct (_ || _); [apply hn_refl|]. cbv zeta.
  set (s := if issweepphase st then _ else st). assert (A : hn st s).
  { unfold s. destruct (issweepphase st); [|apply hn_refl]. eapply hn_trans; [apply (hn_setcol st o (White (cw st)))|]. fold (makewhite st o). set (w := makewhite st o). clearbody w.
    destruct (sweepgc w) as [[|x]|]; try apply hn_refl. destruct (gcs w); try apply hn_refl. destruct (Nat.eqb x o); [|apply hn_refl].
    destruct (split_after o (allgc w)) as [pre suf]. pr (hn_sweeptolive suf w). apply hn_same; reflexivity. }
  clearbody s. eapply hn_trans; [exact A|]. eapply hn_trans; [apply (hn_same s (set_objs s (remove1 o (allgc s)) (o :: finobj s) (tobefnz s))); reflexivity | hnm].
Qed.
(** Every event. *)
Lemma step_kind : forall st e x, x < nextid st -> (heap (step st e) x = None \/ option_map o_kind (heap (step st e) x) = option_map o_kind (heap st x)) /\ x < nextid (step st e).
Proof.
  assert (G : forall st st' x, hn0 st st' -> x < nextid st -> (heap st' x = None \/ option_map o_kind (heap st' x) = option_map o_kind (heap st x)) /\ x < nextid st') by (intros st st' x [A B] L; split; [apply A | lia]).
  intros st e x L.
  destruct e as [em| | |k vs us|th i v|th n|o i v|o n|t k v|t vs h|o mt|mt md g|p cl|th i|u v|th us|cl i u|th|v|i m|s|i s|p v]; cbn [step].
  4: { rewrite newobj_alloc. assert (A : heap (alloc st k vs us) x = heap st x) by (cbn; destruct (Nat.eqb_spec x (nextid st)); [lia | reflexivity]).
    destruct (hn_push (alloc st k vs us) (VObj (nextid st))) as [B [C _]]. split; [rewrite <- A; apply B|]. rewrite C. cbn. lia. }
  1: exact (G _ _ _ (hn_singlestep _ _) L).
  all: refine (G _ _ _ (hn0_hn _ _ _) L); try hnm; try (apply hn_same; reflexivity).
  - destruct (keepinvariant st); [apply hn_entersweep | apply hn_refl].
  - destruct (is_propagate _); [apply hn_same; reflexivity | apply hn_refl].
  - unfold store_val. destruct (kind_of st o) as [[]|]; try apply hn_refl; (eapply hn_trans; [apply (hn_modify st o (fun b => with_vals b (list_set (o_vals b) i v))); reflexivity|]);
      first [apply hn_back_val | apply hn_barrier_val].
  - unfold store_hash. destruct (heap st t); [|apply hn_refl]. destruct (existsb _ _).
    + eapply hn_trans; [|apply hn_back_val]. apply hn_sethash.
    + cbv zeta. eapply hn_trans; [|apply hn_back_val]. eapply hn_trans; [|apply hn_sethash]. eapply hn_trans; [|apply hn_back_key]. apply hn_sethash.
  - unfold rebuild. eapply hn_trans; [|apply hn_fold; intros; apply hn_back_key]. hnm.
  - unfold setmeta. destruct mt as [m|]; [|hnm]. cbv zeta. eapply hn_trans; [|apply hn_checkfinalizer]. eapply hn_trans; [|apply hn_barrier]. hnm.
  - destruct (isblack st p); [apply hn_refl | hnm].
  - unfold findupval. cbv zeta. eapply hn_trans; [apply (hn_set_uvs st)|]. destruct (existsb _ _); [hnm|]. eapply hn_trans; [apply (hn_modify _ th (fun b => with_open b (nextuv st :: o_open b))); reflexivity | apply hn_same; reflexivity].
  - unfold setupval. destruct (uvs st u) as [[| ]|]; [hnm | | apply hn_refl]. eapply hn_trans; [|apply hn_upvalbarrier]. apply hn_set_uvs.
  - unfold close_upvs. cbv zeta. eapply hn_trans; [apply (hn_modify st th (fun b => with_open b (filter (fun u => negb (existsb (Nat.eqb u) us)) (o_open b)))); reflexivity|]. apply hn_fold. intros s a. eapply hn_trans; [|apply hn_upvalbarrier]. apply hn_set_uvs.
  - unfold joinupv. cbv zeta. eapply hn_trans; [apply (hn_modify st cl (fun b => with_upv b (list_set (o_upv b) i u))); reflexivity|]. eapply hn_trans; [|apply hn_upvalbarrier]. destruct (uvs _ u) as [[| ]|]; try apply hn_refl. apply hn_set_uvs.
  - unfold intern. eapply hn_trans; [|apply hn_push]. destruct (isdead st s); [apply hn_setcol | apply hn_refl].
Qed.
Lemma step_none : forall st e x, heap st x = None -> x < nextid st -> heap (step st e) x = None /\ x < nextid (step st e).
Proof.
  intros st e x H L. destruct (step_kind st e x L) as [[A|A] B]; split; auto. rewrite H in A. destruct (heap (step st e) x); [discriminate | reflexivity].
Qed.
