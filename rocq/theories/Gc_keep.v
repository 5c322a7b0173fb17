(** What marking leaves in place: every entry in use, and every live slot; and what
    the tables in the lists of weak tables are. *)
From Coq Require Import ZArith List Bool Arith Lia.
From Verif Require Import Base Gc_model Gc_spec Gc_facts Gc_tri Gc_trav Gc_prop Gc_atomic Gc_fin Gc_core Gc_dead Gc_weak_spec.
Import ListNotations.
Local Open Scope nat_scope.

Record okeep (a b : obj) : Prop := {
  ok_sub : osub a b;
  ok_hash : forall k v, In (k, v) (o_hash a) -> v <> VNil -> In (k, v) (o_hash b);
  ok_live : live b = live a;
  ok_vals : o_kind a <> KThread -> o_vals b = o_vals a
}.
Record Kp (st st' : gst) : Prop := {
  kp_none : forall o, heap st o = None -> heap st' o = None;
  kp_some : forall o a, heap st o = Some a -> exists b, heap st' o = Some b /\ okeep a b;
  kp_uv : forall u, usub (uvs st u) (uvs st' u);
  kp_id : nextid st' = nextid st
}.
Lemma okeep_refl : forall a, okeep a a. Proof. intros a. constructor; auto. apply osub_refl. Qed.
Lemma okeep_trans : forall a b c, okeep a b -> okeep b c -> okeep a c.
Proof.
  intros a b c [A1 A2 A3 A4] [B1 B2 B3 B4]. constructor; [exact (osub_trans _ _ _ A1 B1) | auto | congruence|].
  intros N. rewrite B4; [auto|]. rewrite (os_kind _ _ A1). exact N.
Qed.
Lemma Kp_refl : forall st, Kp st st.
Proof. intros st. constructor; [auto | | intros; apply usub_refl | reflexivity]. intros o a H. exists a. split; [exact H | apply okeep_refl]. Qed.
Lemma Kp_trans : forall a b c, Kp a b -> Kp b c -> Kp a c.
Proof.
  intros a b c [A1 A2 A3 A4] [B1 B2 B3 B4]. constructor; [auto | | intros u; exact (usub_trans _ _ _ (A3 u) (B3 u)) | congruence].
  intros o x H. destruct (A2 o x H) as [y [Hy Ky]]. destruct (B2 o y Hy) as [z [Hz Kz]]. exists z. split; [exact Hz | exact (okeep_trans _ _ _ Ky Kz)].
Qed.
Lemma Kp_inv : forall st st' o b, Kp st st' -> heap st' o = Some b -> exists a, heap st o = Some a /\ okeep a b.
Proof.
  intros st st' o b K H. destruct (heap st o) as [a|] eqn:E.
  - destruct (kp_some _ _ K o a E) as [b' [Eb Kb]]. exists a. split; [reflexivity | congruence].
  - rewrite (kp_none _ _ K o E) in H. discriminate.
Qed.
Lemma Kp_kind : forall st st' o, Kp st st' -> kind_of st' o = kind_of st o.
Proof.
  intros st st' o K. unfold kind_of. destruct (heap st o) as [a|] eqn:E.
  - destruct (kp_some _ _ K o a E) as [b [Eb Kb]]. rewrite Eb, (os_kind _ _ (ok_sub _ _ Kb)). reflexivity.
  - rewrite (kp_none _ _ K o E). reflexivity.
Qed.
Lemma Kp_nw : forall st st' o, Kp st st' -> iswhite st o = false -> iswhite st' o = false.
Proof.
  intros st st' o K H. unfold iswhite in *. destruct (heap st' o) as [b|] eqn:E; [|reflexivity]. destruct (Kp_inv _ _ _ _ K E) as [a [Ea Ka]]. rewrite Ea in H.
  destruct (is_whitec (o_col b)) eqn:W; [|reflexivity]. rewrite (os_col _ _ (ok_sub _ _ Ka) W) in W. congruence.
Qed.
Lemma Kp_mode : forall st st' a b, Kp st st' -> okeep a b -> weakmode st' b = weakmode st a.
Proof.
  intros st st' a b K O. unfold weakmode. rewrite (os_meta _ _ (ok_sub _ _ O)). destruct (o_meta a) as [m|]; [|reflexivity].
  destruct (heap st m) as [mb|] eqn:H.
  - destruct (kp_some _ _ K _ _ H) as [c [Hc Oc]]. rewrite Hc. apply (os_mode _ _ (ok_sub _ _ Oc)).
  - rewrite (kp_none _ _ K _ H). reflexivity.
Qed.
Lemma typ_Kp : forall st st', typ st -> Kp st st' -> typ st'.
Proof.
  intros st st' T K. constructor.
  - intros o b E. destruct (Kp_inv _ _ _ _ K E) as [a [Ea Ka]]. exact (kwf_osub _ _ (ok_sub _ _ Ka) (t_kwf _ T o a Ea)).
  - intros o b m E Hm. destruct (Kp_inv _ _ _ _ K E) as [a [Ea Ka]]. rewrite (Kp_kind _ _ _ K). apply (t_meta _ T o a m Ea). rewrite <- (os_meta _ _ (ok_sub _ _ Ka)). exact Hm.
  - intros o b E. destruct (Kp_inv _ _ _ _ K E) as [a [Ea Ka]]. rewrite (kp_id _ _ K). exact (t_fresh _ T o a Ea).
Qed.
Lemma Kp_modify : forall st o f, (forall a, heap st o = Some a -> okeep a (f a)) -> Kp st (modify st o f).
Proof.
  intros st o f F. constructor.
  - intros x H. rewrite heap_modify. destruct (Nat.eqb_spec x o) as [->|]; [rewrite H; reflexivity | exact H].
  - intros x a H. rewrite heap_modify. destruct (Nat.eqb_spec x o) as [->|].
    + rewrite H. cbn. exists (f a). split; [reflexivity | apply F, H].
    + exists a. split; [exact H | apply okeep_refl].
  - intros u. rewrite modify_rest. apply usub_refl.
  - rewrite modify_rest. reflexivity.
Qed.
Lemma Kp_same : forall st st', heap st' = heap st -> uvs st' = uvs st -> nextid st' = nextid st -> Kp st st'.
Proof. intros st st' H U N. constructor; [intros o; rewrite H; auto | intros o a; rewrite H; exists a; split; [assumption | apply okeep_refl] | intros u; rewrite U; apply usub_refl | exact N]. Qed.
Lemma okeep_col : forall a c, (is_whitec c = true -> c = o_col a) -> okeep a (with_col a c).
Proof. intros a c H. constructor; [apply osub_col, H | auto | reflexivity | reflexivity]. Qed.
Lemma Kp_col : forall st o c, is_whitec c = false -> Kp st (setcol st o c).
Proof. intros st o c H. apply Kp_modify. intros a _. apply okeep_col. intros; congruence. Qed.
Lemma Kp_mrel : forall st st', mrel st st' -> Kp st st'.
Proof.
  intros st st' M. mfields M. constructor.
  - apply (r_none _ _ M).
  - intros o a E. destruct (r_some _ _ M o a E) as [b [Eb [W C]]]. exists b. split; [exact Eb|]. rewrite W.
    apply okeep_col. intros Hw. destruct C as [C | [_ [[C _] | [C _]]]]; [exact C | |]; rewrite C in Hw; discriminate.
  - intros u. rewrite Fuvs. apply usub_refl.
  - exact Fnextid.
Qed.
Lemma in_clean : forall h k v, In (k, v) h -> v <> VNil -> In (k, v) (clean h).
Proof.
  intros h k v I N. unfold clean. apply in_map_iff. exists (k, v). split; [|exact I]. cbn. destruct k; try reflexivity. destruct v; [congruence | reflexivity | reflexivity].
Qed.
Lemma Kp_clean : forall st o h, (forall a, heap st o = Some a -> o_hash a = h) -> Kp st (sethash st o (clean h)).
Proof.
  intros st o h H. apply Kp_modify. intros a E. rewrite <- (H a E). constructor; [apply osub_hash, clean_esub | | reflexivity | reflexivity].
  intros k v I N. cbn. apply in_clean; assumption.
Qed.

(** ** The lists of weak tables *)
Definition mdo (st : gst) (o : id) (m : bool * bool) : Prop := forall ob, heap st o = Some ob -> weakmode st ob = m.
Definition aw (st : gst) (o : id) : Prop := forall ob, heap st o = Some ob -> weakmode st ob = (true, true) \/
  (weakmode st ob = (true, false) /\ (o_kind ob = KTable -> valsnw st ob) /\ forall k v, In (k, v) (o_hash ob) -> v <> VNil -> valnw st v).
Record LM (st : gst) : Prop := {
  lm_weak : forall o, In o (weak st) -> mdo st o (false, true);
  lm_eph : forall o, In o (ephemeron st) -> mdo st o (true, false) /\ kind_of st o = Some KTable;
  lm_all : forall o, In o (allweak st) -> aw st o
}.
Lemma mdo_Kp : forall st st' o m, Kp st st' -> mdo st o m -> mdo st' o m.
Proof. intros st st' o m K H b E. destruct (Kp_inv _ _ _ _ K E) as [a [Ea Ka]]. rewrite (Kp_mode _ _ _ _ K Ka). apply H, Ea. Qed.
Lemma valnw_Kp : forall st st' v, Kp st st' -> valnw st v -> valnw st' v.
Proof. intros st st' v K H. destruct v; try reflexivity. exact (Kp_nw _ _ _ K H). Qed.
Lemma aw_Kp : forall st st' o, Kp st st' -> aw st o -> aw st' o.
Proof.
  intros st st' o K H b E. destruct (Kp_inv _ _ _ _ K E) as [a [Ea Ka]]. rewrite (Kp_mode _ _ _ _ K Ka).
  destruct (H a Ea) as [X|[X [Y Z]]]; [left; exact X|]. right. split; [exact X|]. split.
  - intros Kb x I. rewrite (os_kind _ _ (ok_sub _ _ Ka)) in Kb. rewrite (ok_vals _ _ Ka) in I by congruence. exact (Kp_nw _ _ _ K (Y Kb x I)).
  - intros k v I N. apply (valnw_Kp _ _ _ K), (Z k v); [|exact N]. exact (hash_osub _ _ _ _ (ok_sub _ _ Ka) I N).
Qed.
Lemma LM_Kp : forall st st', Kp st st' -> weak st' = weak st -> ephemeron st' = ephemeron st -> allweak st' = allweak st -> LM st -> LM st'.
Proof.
  intros st st' K W E A [L1 L2 L3]. constructor.
  - rewrite W. intros o I. exact (mdo_Kp _ _ _ _ K (L1 o I)).
  - rewrite E. intros o I. destruct (L2 o I) as [X Y]. split; [exact (mdo_Kp _ _ _ _ K X) | rewrite (Kp_kind _ _ _ K); exact Y].
  - rewrite A. intros o I. exact (aw_Kp _ _ _ K (L3 o I)).
Qed.
Definition KL (st st' : gst) : Prop := Kp st st' /\ (LM st -> LM st').
Lemma KL_refl : forall st, KL st st. Proof. intros st. split; [apply Kp_refl | auto]. Qed.
Lemma KL_trans : forall a b c, KL a b -> KL b c -> KL a c.
Proof. intros a b c [A1 A2] [B1 B2]. split; [exact (Kp_trans _ _ _ A1 B1) | auto]. Qed.
Lemma KL_mrel : forall st st', mrel st st' -> KL st st'.
Proof. intros st st' M. split; [apply Kp_mrel, M|]. mfields M. apply LM_Kp; [apply Kp_mrel, M | assumption | assumption | assumption]. Qed.
Lemma KL_Kp : forall st st', Kp st st' -> weak st' = weak st -> ephemeron st' = ephemeron st -> allweak st' = allweak st -> KL st st'.
Proof. intros. split; [assumption | apply LM_Kp; assumption]. Qed.
Lemma KL_mod : forall st o f, (forall a, heap st o = Some a -> okeep a (f a)) -> KL st (modify st o f).
Proof. intros st o f F. apply KL_Kp; [apply Kp_modify, F | rewrite modify_rest; reflexivity | rewrite modify_rest; reflexivity | rewrite modify_rest; reflexivity]. Qed.
Lemma KL_col : forall st o c, is_whitec c = false -> KL st (setcol st o c).
Proof. intros st o c H. apply KL_mod. intros a _. apply okeep_col. intros; congruence. Qed.
Lemma KL_clean : forall st o h, (forall a, heap st o = Some a -> o_hash a = h) -> KL st (sethash st o (clean h)).
Proof. intros st o h H. unfold sethash. apply KL_Kp; [apply (Kp_clean st o h H) | rewrite modify_rest; reflexivity | rewrite modify_rest; reflexivity | rewrite modify_rest; reflexivity]. Qed.
Lemma KL_link_gray : forall st o, KL st (link_gray st o).
Proof. intros. eapply KL_trans; [|apply KL_col; reflexivity]. apply KL_Kp; [apply Kp_same; reflexivity | reflexivity | reflexivity | reflexivity]. Qed.
Lemma KL_link_grayagain : forall st o, KL st (link_grayagain st o).
Proof. intros. eapply KL_trans; [|apply KL_col; reflexivity]. apply KL_Kp; [apply Kp_same; reflexivity | reflexivity | reflexivity | reflexivity]. Qed.
Lemma KL_link_weak : forall st o, mdo st o (false, true) -> KL st (link_weak st o).
Proof.
  intros st o H. eapply KL_trans; [|apply KL_col; reflexivity]. split; [apply Kp_same; reflexivity|]. intros [L1 L2 L3].
  constructor; [intros x [<-|I]; [exact H | exact (L1 x I)] | exact L2 | exact L3].
Qed.
Lemma KL_link_ephemeron : forall st o, mdo st o (true, false) /\ kind_of st o = Some KTable -> KL st (link_ephemeron st o).
Proof.
  intros st o H. eapply KL_trans; [|apply KL_col; reflexivity]. split; [apply Kp_same; reflexivity|]. intros [L1 L2 L3].
  constructor; [exact L1 | intros x [<-|I]; [exact H | exact (L2 x I)] | exact L3].
Qed.
Lemma KL_link_allweak : forall st o, aw st o -> KL st (link_allweak st o).
Proof.
  intros st o H. eapply KL_trans; [|apply KL_col; reflexivity]. split; [apply Kp_same; reflexivity|]. intros [L1 L2 L3].
  constructor; [exact L1 | exact L2 | intros x [<-|I]; [exact H | exact (L3 x I)]].
Qed.

(** ** Traversals *)
Lemma mrel_hash : forall st st' o ob a, mrel st st' -> heap st o = Some ob -> heap st' o = Some a -> o_hash a = o_hash ob /\ o_vals a = o_vals ob /\ o_kind a = o_kind ob.
Proof. intros st st' o ob a M H E. destruct (r_some _ _ M o ob H) as [b [Eb [W _]]]. rewrite Eb in E. injection E as <-. rewrite W. repeat split; reflexivity. Qed.
Lemma eph_ww : forall h st mk hc ww, typ st -> snd (eph_hash st h mk hc ww) = false ->
  ww = false /\ forall k v, In (k, v) h -> v <> VNil -> valnw (fst (fst (fst (eph_hash st h mk hc ww)))) v.
Proof.
  induction h as [|[k v] h IH]; intros st mk hc ww T H; cbn [eph_hash] in *.
  - split; [exact H | intros k v []].
  - destruct (isnil v) eqn:Nv.
    { destruct (IH st mk hc ww T H) as [A B]. split; [exact A|]. intros k' v' [E|I] N; [injection E as <- <-; destruct v; [congruence | discriminate | discriminate] | exact (B k' v' I N)]. }
    destruct (iscleared_ok st (kobj k) T) as [M1 _]. destruct (iscleared st (kobj k)) as [s c]. cbn [fst] in M1. assert (T1 := typ_mrel _ _ T M1). destruct c.
    + destruct (IH s mk true (ww || valiswhite s v) T1 H) as [A B]. apply orb_false_iff in A. destruct A as [A1 A2]. split; [exact A1|].
      intros k' v' [E|I] N; [injection E as <- <-|exact (B k' v' I N)]. apply (valnw_mrel s); [|exact A2]. apply (eph_hash_ok h s mk true (ww || valiswhite s v) T1).
    + destruct (valiswhite s v) eqn:Wv.
      * destruct (mark_val_ok s v T1) as [M2 Q2]. assert (T2 := typ_mrel _ _ T1 M2). destruct (IH (mark_val s v) true hc ww T2 H) as [A B]. split; [exact A|].
        intros k' v' [E|I] N; [injection E as <- <-|exact (B k' v' I N)]. apply (valnw_mrel (mark_val s v)); [apply (eph_hash_ok h _ true hc ww T2)|].
        apply vobj_nw. intros x Ex. apply Q2. destruct v; inversion Ex; reflexivity.
      * destruct (IH s mk hc ww T1 H) as [A B]. split; [exact A|].
        intros k' v' [E|I] N; [injection E as <- <-|exact (B k' v' I N)]. apply (valnw_mrel s); [apply (eph_hash_ok h s mk hc ww T1) | exact Wv].
Qed.
Lemma KL_traverseephemeron : forall st o ob, typ st -> heap st o = Some ob -> o_kind ob = KTable -> weakmode st ob = (true, false) -> KL st (fst (traverseephemeron st o ob)).
Proof.
  intros st o ob T Ho Ko Wo. unfold traverseephemeron.
  destruct (eph_arr_ok (o_vals ob) st false T) as [M1 [V1 _]]. destruct (eph_arr st (o_vals ob) false) as [s1 m1]. cbn [fst snd] in *. assert (T1 := typ_mrel _ _ T M1).
  destruct (eph_hash_ok (o_hash ob) s1 m1 false false T1) as [M2 _]. assert (W2 := eph_ww (o_hash ob) s1 m1 false false T1).
  destruct (eph_hash s1 (o_hash ob) m1 false false) as [[[s2 m2] hc] ww]. cbn [fst snd] in *. assert (M := mrel_trans _ _ _ M1 M2).
  assert (K2 := KL_mrel _ _ M). assert (H2 : forall a, heap s2 o = Some a -> o_hash a = o_hash ob) by (intros a Ha; apply (mrel_hash st s2 o ob a M Ho Ha)).
  assert (K3 := KL_clean s2 o (o_hash ob) H2). set (s3 := sethash s2 o (clean (o_hash ob))) in *.
  assert (K := KL_trans _ _ _ K2 K3). assert (Md : mdo s3 o (true, false)) by (apply (mdo_Kp st _ _ _ (proj1 K)); intros b Hb; congruence).
  assert (Kd : kind_of s3 o = Some KTable) by (rewrite (Kp_kind _ _ _ (proj1 K)); unfold kind_of; rewrite Ho, Ko; reflexivity).
  destruct (is_propagate (gcs s3)); [exact (KL_trans _ _ _ K (KL_link_grayagain s3 o))|].
  destruct ww; [exact (KL_trans _ _ _ K (KL_link_ephemeron s3 o (conj Md Kd)))|]. destruct hc; [|exact K].
  apply (KL_trans _ _ _ K), KL_link_allweak. intros b Hb. right. split; [apply Md, Hb|].
  destruct (Kp_inv _ _ _ _ (proj1 K3) Hb) as [c [Hc Kc]]. destruct (mrel_hash _ _ _ _ _ M Ho Hc) as [E1 [E2 E3]]. split.
  - intros _ x I. rewrite (ok_vals _ _ Kc) in I by congruence. rewrite E2 in I. apply (Kp_nw _ _ _ (proj1 K3)), (mrel_nw _ _ _ M2), (V1 (VObj x) I).
  - intros k v I N. apply (valnw_Kp _ _ _ (proj1 K3)). apply (proj2 (W2 eq_refl) k v); [|exact N]. rewrite <- E1. exact (hash_osub _ _ _ _ (ok_sub _ _ Kc) I N).
Qed.
Lemma KL_traversetable : forall st o ob, typ st -> heap st o = Some ob -> o_kind ob = KTable -> iswhite st o = false -> KL st (traversetable st o ob).
Proof.
  intros st o ob T Ho Ko Nw. unfold traversetable.
  assert (K1 : KL st (mark_meta st (o_meta ob)) /\ typ (mark_meta st (o_meta ob)) /\ heap (mark_meta st (o_meta ob)) o = Some ob).
  { destruct (o_meta ob) as [m|]; cbn; [|split; [apply KL_refl | split; assumption]]. destruct (iswhite st m) eqn:Wm; [|split; [apply KL_refl | split; assumption]].
    assert (K := KL_link_gray st m). split; [exact K|]. split; [exact (typ_Kp _ _ T (proj1 K))|].
    unfold link_gray, setcol. rewrite heap_modify. destruct (Nat.eqb_spec o m) as [->|]; [congruence | exact Ho]. }
  destruct K1 as [K1 [T1 H1]]. apply (KL_trans _ _ _ K1). assert (Wm : weakmode (mark_meta st (o_meta ob)) ob = weakmode st ob).
  { apply (Kp_mode _ _ _ _ (proj1 K1)), okeep_refl. } rewrite <- Wm. clear Wm. set (s := mark_meta st (o_meta ob)) in *. clearbody s. clear K1 T Ho Nw st.
  destruct (weakmode s ob) as [[|] [|]] eqn:W.
  - apply KL_link_allweak. intros b Hb. left. congruence.
  - apply KL_traverseephemeron; assumption.
  - unfold traverseweakvalue. destruct (weakvalue_loop_ok (o_hash ob) s (negb (Nat.eqb (length (o_vals ob)) 0)) T1) as [M _].
    destruct (weakvalue_loop s (o_hash ob) (negb (Nat.eqb (length (o_vals ob)) 0))) as [s2 hc]. cbn [fst] in M.
    assert (H2 : forall a, heap s2 o = Some a -> o_hash a = o_hash ob) by (intros a Ha; apply (mrel_hash s s2 o ob a M H1 Ha)).
    assert (K := KL_trans _ _ _ (KL_mrel _ _ M) (KL_clean s2 o (o_hash ob) H2)). set (s3 := sethash s2 o (clean (o_hash ob))) in *.
    destruct (_ && hc); [|exact (KL_trans _ _ _ K (KL_link_grayagain s3 o))].
    apply (KL_trans _ _ _ K), KL_link_weak. apply (mdo_Kp s _ _ _ (proj1 K)). intros b Hb. congruence.
  - unfold traversestrongtable. destruct (mark_vals_ok (o_vals ob) s T1) as [M1 _]. destruct (mark_entries_ok (o_hash ob) _ (typ_mrel _ _ T1 M1)) as [M2 _].
    assert (M := mrel_trans _ _ _ M1 M2). apply (KL_trans _ _ _ (KL_mrel _ _ M)), KL_clean. intros a Ha. apply (mrel_hash s _ o ob a M H1 Ha).
Qed.
Lemma KL_fold : forall (A : Type) (f : gst -> A -> gst), (forall st a, typ st -> KL st (f st a)) -> forall l st, typ st -> KL st (fold_left f l st).
Proof.
  intros A f F l. induction l as [|a l IH]; intros st T; cbn; [apply KL_refl|]. assert (K := F st a T). apply (KL_trans _ _ _ K), IH. exact (typ_Kp _ _ T (proj1 K)).
Qed.
Lemma KL_touch : forall st u th i t t', uvs st u = Some (UOpen th i t) -> KL st (set_uvs st (fun x => if Nat.eqb x u then Some (UOpen th i t') else uvs st x) (nextuv st)).
Proof.
  intros st u th i t t' U. apply KL_Kp; [|reflexivity | reflexivity | reflexivity]. constructor; [auto | intros o a H; exists a; split; [exact H | apply okeep_refl] | | reflexivity].
  intros x. cbn. destruct (Nat.eqb_spec x u) as [->|]; [rewrite U; cbn; exists t'; reflexivity | apply usub_refl].
Qed.
Lemma KL_val : forall st v, typ st -> KL st (mark_val st v). Proof. intros st v T. apply KL_mrel, mark_val_ok, T. Qed.
Lemma KL_trav_upv : forall st u, typ st -> KL st (trav_upv st u).
Proof.
  intros st u T. unfold trav_upv. destruct (uvs st u) as [[th i t|v]|] eqn:U; [|apply KL_val, T | apply KL_refl].
  destruct (is_atomic (gcs st)); [apply KL_val, T | exact (KL_touch st u th i t true U)].
Qed.
Lemma live_cut : forall ob, o_kind ob = KThread -> live (with_vals ob (firstn (o_top ob) (o_vals ob) ++ nils (length (o_vals ob) - o_top ob))) = live ob.
Proof.
  intros ob K. unfold live. cbn. rewrite K. destruct (Nat.le_gt_cases (length (o_vals ob)) (o_top ob)) as [L|L].
  - replace (length (o_vals ob) - o_top ob) with 0 by lia. cbn. rewrite app_nil_r, firstn_firstn, Nat.min_id. reflexivity.
  - rewrite firstn_app, firstn_firstn, Nat.min_id, firstn_length, Nat.min_l by lia. rewrite Nat.sub_diag. cbn. apply app_nil_r.
Qed.
Lemma KL_traversethread : forall st o ob, typ st -> kind_of st o = Some KThread -> KL st (traversethread st o ob).
Proof.
  intros st o ob T Ko. unfold traversethread.
  set (s1 := if is_propagate (gcs st) then link_grayagain st o else st).
  assert (K1 : KL st s1) by (unfold s1; destruct (is_propagate (gcs st)); [apply KL_link_grayagain | apply KL_refl]). clearbody s1. assert (T1 := typ_Kp _ _ T (proj1 K1)).
  cbv zeta. destruct (mark_vals_ok (firstn (o_top ob) (o_vals ob)) s1 T1) as [M2 _]. set (s2 := mark_vals s1 (firstn (o_top ob) (o_vals ob))) in *. clearbody s2.
  assert (K2 := KL_trans _ _ _ K1 (KL_mrel _ _ M2)). assert (T2 := typ_Kp _ _ T (proj1 K2)).
  assert (M3 := fold_open_ok (o_open ob) s2 T2). set (s3 := fold_left _ (o_open ob) s2) in *. clearbody s3. assert (K3 := KL_trans _ _ _ K2 (KL_mrel _ _ M3)).
  destruct (is_atomic (gcs s3)); [|exact K3].
  assert (K4 : KL s3 (modify s3 o (fun b => with_vals b (firstn (o_top b) (o_vals b) ++ nils (length (o_vals b) - o_top b))))).
  { apply KL_mod. intros a Ha. assert (Ka : o_kind a = KThread) by (rewrite <- (Kp_kind _ _ o (proj1 K3)) in Ko; unfold kind_of in Ko; rewrite Ha in Ko; congruence).
    constructor; [apply osub_vals, thread_vals_sub | auto | apply live_cut, Ka | congruence]. }
  apply (KL_trans _ _ _ (KL_trans _ _ _ K3 K4)). set (s4 := modify s3 o _). clearbody s4.
  destruct (existsb _ _); [apply KL_refl|]. destruct (o_open ob); [apply KL_refl|]. apply KL_Kp; [apply Kp_same; reflexivity | reflexivity | reflexivity | reflexivity].
Qed.
Lemma KL_propagatemark : forall st, typ st -> KL st (propagatemark st).
Proof.
  intros st T. unfold propagatemark. destruct (gray st) as [|o g]; [apply KL_refl|].
  assert (K1 : KL st (set2black (set_gray st g) o)).
  { eapply KL_trans; [|apply KL_col; reflexivity]. apply KL_Kp; [apply Kp_same; reflexivity | reflexivity | reflexivity | reflexivity]. }
  assert (Nw : heap (set2black (set_gray st g) o) o <> None -> iswhite (set2black (set_gray st g) o) o = false).
  { intros _. unfold set2black, setcol, iswhite. rewrite heap_modify, Nat.eqb_refl. destruct (heap _ o); reflexivity. }
  assert (T1 := typ_Kp _ _ T (proj1 K1)). apply (KL_trans _ _ _ K1). set (s := set2black (set_gray st g) o) in *. clearbody s. clear K1 T st g. cbv zeta.
  destruct (heap s o) as [ob|] eqn:Ho; [|apply KL_refl]. specialize (Nw ltac:(discriminate)). destruct (o_kind ob) eqn:Ko; try apply KL_refl.
  - apply KL_traversetable; assumption.
  - unfold traverseLclosure. destruct (mark_vals_ok (o_vals ob) s T1) as [M _]. apply (KL_trans _ _ _ (KL_mrel _ _ M)). apply KL_fold; [intros; apply KL_trav_upv; assumption | exact (typ_mrel _ _ T1 M)].
  - apply KL_mrel, mark_vals_ok, T1.
  - unfold traverseproto. set (s1 := match o_cache ob with Some c => if iswhite s c then modify s o (fun b => with_cache b None) else s | None => s end).
    assert (K1 : KL s s1).
    { unfold s1. destruct (o_cache ob) as [c|]; [|apply KL_refl]. destruct (iswhite s c); [|apply KL_refl]. apply KL_mod. intros a _. constructor; [apply osub_cache | auto | reflexivity | reflexivity]. }
    clearbody s1. apply (KL_trans _ _ _ K1), KL_mrel, mark_vals_ok. exact (typ_Kp _ _ T1 (proj1 K1)).
  - apply KL_traversethread; [exact T1|]. unfold kind_of. rewrite Ho, Ko. reflexivity.
Qed.
Lemma KL_propagate_n : forall n st, typ st -> KL st (propagate_n n st).
Proof.
  induction n as [|n IH]; intros st T; cbn [propagate_n]; [apply KL_refl|]. destruct (gray st); [apply KL_refl|]. assert (K := KL_propagatemark st T).
  apply (KL_trans _ _ _ K), IH. exact (typ_Kp _ _ T (proj1 K)).
Qed.
Lemma KL_propagateall : forall st, typ st -> KL st (propagateall st). Proof. intros st T. apply KL_propagate_n, T. Qed.
(** ** The atomic phase *)
Definition ephl (st : gst) (l : list id) : Prop := forall o, In o l -> mdo st o (true, false) /\ kind_of st o = Some KTable.
Lemma ephl_Kp : forall st st' l, Kp st st' -> ephl st l -> ephl st' l.
Proof. intros st st' l K H o I. destruct (H o I) as [A B]. split; [exact (mdo_Kp _ _ _ _ K A) | rewrite (Kp_kind _ _ _ K); exact B]. Qed.
Lemma KL_converge_pass : forall l st ch, typ st -> ephl st l -> KL st (fst (converge_pass st l ch)).
Proof.
  induction l as [|o l IH]; intros st ch T E; cbn [converge_pass]; [apply KL_refl|]. cbv zeta.
  assert (K1 : KL st (set2black st o)) by (apply KL_col; reflexivity). assert (T1 := typ_Kp _ _ T (proj1 K1)). assert (E1 := ephl_Kp _ _ _ (proj1 K1) E).
  apply (KL_trans _ _ _ K1). set (s := set2black st o) in *. clearbody s. clear K1 T E st.
  assert (El : ephl s l) by (intros x I; apply E1; right; exact I). destruct (heap s o) as [ob|] eqn:Ho; [|apply IH; assumption].
  destruct (E1 o (or_introl eq_refl)) as [Md Kd]. unfold kind_of in Kd. rewrite Ho in Kd. injection Kd as Kd.
  assert (K2 := KL_traverseephemeron s o ob T1 Ho Kd (Md ob Ho)). destruct (traverseephemeron s o ob) as [s2 m]. cbn [fst] in K2. assert (T2 := typ_Kp _ _ T1 (proj1 K2)).
  apply (KL_trans _ _ _ K2). destruct m.
  - assert (K3 := KL_propagateall s2 T2). apply (KL_trans _ _ _ K3). apply IH; [exact (typ_Kp _ _ T2 (proj1 K3)) | exact (ephl_Kp _ _ _ (proj1 K3) (ephl_Kp _ _ _ (proj1 K2) El))].
  - apply IH; [exact T2 | exact (ephl_Kp _ _ _ (proj1 K2) El)].
Qed.
(** From here on the lists are known to be what they should be. *)
Definition KLM (st st' : gst) : Prop := Kp st st' /\ LM st'.
Lemma KLM_intro : forall st st', LM st -> KL st st' -> KLM st st'. Proof. intros st st' L [K H]. split; auto. Qed.
Lemma KLM_trans : forall a b c, KLM a b -> KLM b c -> KLM a c.
Proof. intros a b c [A _] [B L]. split; [exact (Kp_trans _ _ _ A B) | exact L]. Qed.
Lemma KLM_refl : forall st, LM st -> KLM st st. Proof. intros st L. split; [apply Kp_refl | exact L]. Qed.
Lemma KLM_converge_n : forall n st, typ st -> LM st -> KLM st (converge_n n st).
Proof.
  induction n as [|n IH]; intros st T L; cbn [converge_n]; [apply KLM_refl, L|].
  set (s := set_ephemeron st []). assert (Ls : LM s) by (destruct L as [L1 L2 L3]; constructor; [exact L1 | intros o [] | exact L3]).
  assert (Ts : typ s) by (apply (typ_Kp st); [exact T | apply Kp_same; reflexivity]).
  assert (Es : ephl s (ephemeron st)) by (intros o I; exact (lm_eph _ L o I)).
  assert (K := KLM_intro _ _ Ls (KL_converge_pass (ephemeron st) s false Ts Es)).
  assert (K0 : KLM st s) by (split; [apply Kp_same; reflexivity | exact Ls]).
  destruct (converge_pass s (ephemeron st) false) as [s2 ch]. cbn [fst] in K. assert (K2 := KLM_trans _ _ _ K0 K). destruct ch; [|exact K2].
  apply (KLM_trans _ _ _ K2), IH; [exact (typ_Kp _ _ T (proj1 K2)) | apply K2].
Qed.
Lemma KLM_converge : forall st, typ st -> LM st -> KLM st (convergeephemerons st). Proof. intros. apply KLM_converge_n; assumption. Qed.
Lemma KL_remark_upv : forall st u, typ st -> KL st (remark_upv st u).
Proof.
  intros st u T. unfold remark_upv. destruct (uvs st u) as [[th i [|]|v]|] eqn:U; try apply KL_refl. destruct (mark_val_ok st (uv_val st u) T) as [M _].
  apply (KL_trans _ _ _ (KL_mrel _ _ M)). mfields M. apply (KL_touch _ u th i true false). congruence.
Qed.
Lemma KL_remark_loop : forall l st, typ st -> KL st (fst (remark_loop st l)).
Proof.
  induction l as [|t l IH]; intros st T; cbn [remark_loop]; [apply KL_refl|]. destruct (heap st t) as [ob|]; [|apply IH, T].
  destruct (_ && _).
  - assert (K := IH st T). destruct (remark_loop st l) as [s r]. exact K.
  - assert (K := KL_fold _ remark_upv KL_remark_upv (o_open ob) st T). apply (KL_trans _ _ _ K), IH. exact (typ_Kp _ _ T (proj1 K)).
Qed.
Lemma KL_same : forall st st', heap st' = heap st -> uvs st' = uvs st -> nextid st' = nextid st -> weak st' = weak st -> ephemeron st' = ephemeron st -> allweak st' = allweak st -> KL st st'.
Proof. intros. apply KL_Kp; [apply Kp_same; assumption | assumption | assumption | assumption]. Qed.
Lemma KL_remarkupvals : forall st, typ st -> KL st (remarkupvals st).
Proof.
  intros st T. unfold remarkupvals. assert (K := KL_remark_loop (twups st) st T). destruct (remark_loop st (twups st)) as [s r]. cbn [fst] in K.
  apply (KL_trans _ _ _ K), KL_same; reflexivity.
Qed.
Lemma KL_markmt : forall st, typ st -> KL st (markmt st). Proof. intros st T. apply KL_mrel, mark_opts_ok, T. Qed.
Lemma KL_markbeingfnz : forall st, typ st -> KL st (markbeingfnz st). Proof. intros st T. apply KL_mrel, mark_list_ok, T. Qed.
(** A step of a pipeline. *)
Lemma KLM_step : forall (f : gst -> gst) st s, typ st -> (forall s', typ s' -> KL s' (f s')) -> KLM st s -> KLM st (f s).
Proof. intros f st s T F K. apply (KLM_trans _ _ _ K). apply KLM_intro; [apply K | apply F, (typ_Kp _ _ T (proj1 K))]. Qed.
Lemma KLM_atomic_mark : forall st, typ st -> LM st -> KLM st (atomic_mark st).
Proof.
  intros st T L. unfold atomic_mark. cbv zeta.
  set (s0 := set_gcs (set_grayagain st []) GCSatomic). assert (K0 : KLM st s0) by (apply KLM_intro; [exact L | apply KL_same; reflexivity]). clearbody s0.
  assert (K1 := KLM_step (fun s => mark s (curth s)) st s0 T ltac:(intros s Ts; apply KL_mrel, mark_ok, Ts) K0). cbv beta in K1. set (s1 := mark s0 (curth s0)) in *. clearbody s1.
  assert (K2 := KLM_step (fun s => mark_val s (registry s)) st s1 T ltac:(intros s Ts; apply KL_val, Ts) K1). cbv beta in K2. set (s2 := mark_val s1 (registry s1)) in *. clearbody s2.
  assert (K3 := KLM_step markmt st s2 T KL_markmt K2). set (s3 := markmt s2) in *. clearbody s3.
  assert (K4 := KLM_step propagateall st s3 T KL_propagateall K3). set (s4 := propagateall s3) in *. clearbody s4.
  assert (K5 := KLM_step remarkupvals st s4 T KL_remarkupvals K4). set (s5 := remarkupvals s4) in *. clearbody s5.
  assert (K6 := KLM_step propagateall st s5 T KL_propagateall K5). set (s6 := propagateall s5) in *. clearbody s6.
  assert (K7 := KLM_step (fun s => set_gray s (grayagain st)) st s6 T ltac:(intros s Ts; apply KL_same; reflexivity) K6). cbv beta in K7. set (s7 := set_gray s6 (grayagain st)) in *. clearbody s7.
  assert (K8 := KLM_step propagateall st s7 T KL_propagateall K7). set (s8 := propagateall s7) in *. clearbody s8.
  apply (KLM_trans _ _ _ K8), KLM_converge; [exact (typ_Kp _ _ T (proj1 K8)) | apply K8].
Qed.
Lemma KLM_restart : forall st, typ st -> KLM st (restartcollection st).
Proof.
  intros st T. unfold restartcollection. cbv zeta. set (s0 := set_lists st [] [] [] [] []).
  assert (K0 : KLM st s0) by (split; [apply Kp_same; reflexivity | constructor; intros o []]). clearbody s0.
  assert (K1 := KLM_step (fun s => mark s (mainth s)) st s0 T ltac:(intros s Ts; apply KL_mrel, mark_ok, Ts) K0). cbv beta in K1. set (s1 := mark s0 (mainth s0)) in *. clearbody s1.
  assert (K2 := KLM_step (fun s => mark_val s (registry s)) st s1 T ltac:(intros s Ts; apply KL_val, Ts) K1). cbv beta in K2. set (s2 := mark_val s1 (registry s1)) in *. clearbody s2.
  assert (K3 := KLM_step markmt st s2 T KL_markmt K2). set (s3 := markmt s2) in *. clearbody s3.
  exact (KLM_step markbeingfnz st s3 T KL_markbeingfnz K3).
Qed.

(** ** After marking, what is marked is closed under strong references *)
Lemma Kp_wmode : forall st st' a b g, Kp st st' -> okeep a b -> wmode st' b g = wmode st a g.
Proof.
  intros st st' a b g K O. unfold wmode. rewrite (os_meta _ _ (ok_sub _ _ O)). destruct (o_meta a) as [m|]; [|reflexivity].
  destruct (heap st m) as [mb|] eqn:H.
  - destruct (kp_some _ _ K _ _ H) as [c [Hc Oc]]. rewrite Hc, (os_mode _ _ (ok_sub _ _ Oc)). reflexivity.
  - rewrite (kp_none _ _ K _ H). reflexivity.
Qed.
Lemma weakmode_wm : forall st ob, weakmode st ob = (weakkeys st ob, weakvals st ob).
Proof.
  intros st ob. unfold weakmode, weakkeys, weakvals, wmode. destruct (o_meta ob) as [m|]; [|reflexivity].
  destruct (heap st m) as [mb|]; [|reflexivity]. destruct (o_mode mb); reflexivity.
Qed.
Lemma live_in : forall ob v, In v (live ob) -> In v (o_vals ob).
Proof. intros ob v I. unfold live in I. destruct (o_kind ob); try exact I. rewrite <- (firstn_skipn (o_top ob)). apply in_or_app. left. exact I. Qed.
Section closure.
Variable am : gst.
Hypothesis Mk : marked am.
Hypothesis Lm : LM am.
Hypothesis Fx : fixstr am.
Hypothesis Uw : uvwf am.
Lemma am_cases : forall o ob, heap am o = Some ob -> iswhite am o = false ->
  full MC am ob \/ (o_kind ob = KTable /\ metanw am ob /\
    (weakkeys am ob = false -> weakvals am ob = true /\ keysnw am ob) /\
    (weakvals am ob = false -> valsnw am ob /\ forall k v, In (k, v) (o_hash ob) -> v <> VNil -> keywhite am k \/ valnw am v)).
Proof.
  intros o ob H W. assert (T := c_typ _ _ _ _ (k_ci _ Mk)).
  assert (Tab : In o (weak am ++ allweak am ++ ephemeron am) -> o_kind ob = KTable).
  { intros I. assert (X := g_tab _ _ (c_gl _ _ _ _ (k_ci _ Mk)) o I). unfold kind_of in X. rewrite H in X. congruence. }
  destruct (c_tc _ _ _ _ (k_ci _ Mk) o ob ltac:(discriminate) H W) as [I|[I|[I|I]]].
  - left. apply (str_full MC am o ob T H). specialize (Fx o I). unfold kind_of in Fx. rewrite H in Fx. congruence.
  - rewrite (k_gray _ Mk) in I. destruct I.
  - destruct I.
  - destruct I as [I|[[I [M K]]|[[I M]|[I [M V]]]]]; [left; exact I | right | right | right].
    + split; [apply Tab; apply in_or_app; auto|]. split; [exact M|]. assert (X := lm_weak _ Lm o I ob H). rewrite weakmode_wm in X. injection X as X1 X2.
      split; [intros _; split; assumption | congruence].
    + split; [apply Tab; apply in_or_app; right; apply in_or_app; auto|]. split; [exact M|]. destruct (lm_all _ Lm o I ob H) as [X|[X [Y Z]]]; rewrite weakmode_wm in X; injection X as X1 X2.
      * split; congruence.
      * split; [congruence|]. intros _. split; [apply Y, Tab; apply in_or_app; right; apply in_or_app; auto | intros k v J N; right; exact (Z k v J N)].
    + split; [apply Tab; apply in_or_app; right; apply in_or_app; auto|]. split; [exact M|]. destruct (lm_eph _ Lm o I) as [X _]. specialize (X ob H). rewrite weakmode_wm in X. injection X as X1 X2.
      split; [congruence|]. intros _. split; [exact V|]. intros k v J N. exact (k_eph _ Mk o I ob H k v J N).
Qed.
Variable st : gst.
Hypothesis K : Kp st am.
Hypothesis Roots : forall o, firm st o -> iswhite am o = false.
Lemma strong_marked : forall x, surely_held st x -> iswhite am x = false.
Proof.
  assert (T := c_typ _ _ _ _ (k_ci _ Mk)).
  assert (Vl : forall a b x, okeep a b -> iswhite am x = true -> In (VObj x) (live a) -> In (VObj x) (o_vals b)) by (intros a b x O _ I; apply live_in; rewrite (ok_live _ _ O); exact I).
  intros x S. induction S as [o R | a ob b S IH H E | a ob b S IH H I W | a ob b v S IH H I N W | a ob k b S IH H I W P Q | a ob u b S IH H I U | a ob u th i t tb b S IH H I U Ht I2].
  - exact (Roots o R).
  - destruct (kp_some _ _ K a ob H) as [ob' [H' O]]. rewrite <- (os_meta _ _ (ok_sub _ _ O)) in E.
    destruct (am_cases a ob' H' IH) as [F|[_ [M _]]]; [apply F; left; exact E | exact (M b E)].
  - destruct (kp_some _ _ K a ob H) as [ob' [H' O]]. assert (J : In (VObj b) (o_vals ob')) by (apply live_in; rewrite (ok_live _ _ O); exact I).
    destruct (am_cases a ob' H' IH) as [F|[Kt [_ [_ V]]]]; [apply F; right; left; exact J|]. rewrite (os_kind _ _ (ok_sub _ _ O)) in Kt. specialize (W Kt).
    unfold weakvals in V. rewrite (Kp_wmode _ _ _ _ snd K O) in V. exact (proj1 (V W) b J).
  - destruct (kp_some _ _ K a ob H) as [ob' [H' O]]. assert (J := ok_hash _ _ O _ _ I N).
    destruct (am_cases a ob' H' IH) as [F|[Kt [_ [V _]]]]; [apply F; right; right; left; exists v; exact J|].
    unfold weakkeys in V. rewrite (Kp_wmode _ _ _ _ fst K O) in V. exact (proj2 (V W) b v J).
  - destruct (kp_some _ _ K a ob H) as [ob' [H' O]]. assert (J := ok_hash _ _ O _ _ I ltac:(discriminate)).
    destruct (am_cases a ob' H' IH) as [F|[Kt [_ [V1 V2]]]]; [apply F; right; right; right; left; exists k; exact J|].
    unfold weakvals in V1, V2. rewrite (Kp_wmode _ _ _ _ snd K O) in V1, V2. unfold weakkeys in V1. rewrite (Kp_wmode _ _ _ _ fst K O) in V1.
    fold (weakvals st ob) in V1, V2. fold (weakkeys st ob) in V1.
    destruct (weakkeys st ob) eqn:Wk; [|destruct (V1 eq_refl); congruence].
    destruct (proj2 (V2 W) k (VObj b) J ltac:(discriminate)) as [[y [Ey [Wy Ky]]]|X]; [|exact X].
    exfalso. rewrite (Kp_kind _ _ _ K) in Ky. unfold iswhite in Wy. destruct (heap am y) as [yb|] eqn:Hy; [|discriminate]. destruct (Kp_inv _ _ _ _ K Hy) as [ya [Hya _]].
    assert (Z : iswhite am y = false) by (apply (Q eq_refl y (o_kind ya) Ey); [unfold kind_of; rewrite Hya; reflexivity | unfold kind_of in Ky; rewrite Hya in Ky; congruence]).
    unfold iswhite in Z. rewrite Hy in Z. congruence.
  - destruct (kp_some _ _ K a ob H) as [ob' [H' O]]. rewrite <- (os_upv _ _ (ok_sub _ _ O)) in I. assert (U' := kp_uv _ _ K u). rewrite U in U'. cbn in U'.
    destruct (am_cases a ob' H' IH) as [F|[Kt _]]; [|destruct (table_open am a ob' T H' Kt) as [_ [Z _]]; rewrite Z in I; destruct I].
    assert (X := proj2 (proj2 F) u I). unfold openok in X. rewrite U' in X. exact X.
  - destruct (kp_some _ _ K a ob H) as [ob' [H' O]]. rewrite <- (os_upv _ _ (ok_sub _ _ O)) in I. assert (U' := kp_uv _ _ K u). rewrite U in U'. cbn in U'. destruct U' as [t' U'].
    destruct (am_cases a ob' H' IH) as [F|[Kt _]]; [|destruct (table_open am a ob' T H' Kt) as [_ [Z _]]; rewrite Z in I; destruct I].
    destruct (kp_some _ _ K th tb Ht) as [tb' [Ht' Ot]]. rewrite <- (ok_live _ _ Ot) in I2.
    assert (X := proj2 (proj2 F) u I). unfold openok in X. rewrite U' in X. destruct X as [X|X].
    + unfold uv_val in X. rewrite U', Ht' in X.
      assert (Y : nth i (o_vals tb') VNil = VObj b).
      { unfold live in I2. destruct (o_kind tb'); try (apply nth_error_nth; exact I2). apply nth_error_nth. rewrite <- (firstn_skipn (o_top tb') (o_vals tb')).
        rewrite nth_error_app1; [exact I2|]. apply nth_error_Some. congruence. }
      rewrite Y in X. exact X.
    + assert (J := live_in _ _ (nth_error_In _ _ I2)). destruct (am_cases th tb' Ht' X) as [Ft|[Kt _]]; [apply Ft; right; left; exact J|].
      assert (Kw := t_kwf _ T th tb' Ht'). destruct (Uw u th i t' U') as [b' [Hb' Iu]]. rewrite Ht' in Hb'. injection Hb' as <-.
      rewrite (open_kthread tb' Kw ltac:(intros Z; rewrite Z in Iu; destruct Iu)) in Kt. discriminate.
Qed.
End closure.
