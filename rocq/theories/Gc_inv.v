(** The invariant of a whole execution, and the steps of the collector. *)
From Coq Require Import ZArith List Bool Arith Lia Permutation.
From Verif Require Import Base Gc_model Gc_spec Gc_facts Gc_tri Gc_trav Gc_prop Gc_atomic Gc_fin Gc_core Gc_mark Gc_sweep.
Import ListNotations.
Local Open Scope nat_scope.

Lemma firstn_In_ : forall (A : Type) (x : A) n l, In x (firstn n l) -> In x l.
Proof. intros A x n l I. rewrite <- (firstn_skipn n l). apply in_or_app. auto. Qed.
Lemma skipn_In_ : forall (A : Type) (x : A) n l, In x (skipn n l) -> In x l.
Proof. intros A x n l I. rewrite <- (firstn_skipn n l). apply in_or_app. auto. Qed.
Lemma nth_error_firstn_lt : forall (A : Type) n (l : list A) i, i < n -> nth_error (firstn n l) i = nth_error l i.
Proof.
  intros A n. induction n as [|n IH]; intros l i H; [lia|]. destruct l as [|x l]; [reflexivity|]. destruct i as [|i]; [reflexivity|].
  cbn. apply IH. lia.
Qed.
Lemma nth_error_skipn : forall (A : Type) n (l : list A) i, nth_error (skipn n l) i = nth_error l (n + i).
Proof.
  intros A n. induction n as [|n IH]; intros l i; [reflexivity|]. destruct l as [|x l]; [destruct i; reflexivity|]. apply IH.
Qed.

Definition Phase (st : gst) : Prop :=
  match gcs st with
  | GCSpropagate | GCSenteratomic => MarkX None st
  | GCSatomic => False
  | _ => Swp st
  end.

Definition Inv (st : gst) : Prop := Core st /\ Lists st /\ Phase st.

(** ** End of the atomic phase: the other white becomes current *)

Lemma Core_flip : forall st st2, Core st -> allcw st -> shr0 st st2 -> closed st2 ->
  iswhite st2 (mainth st2) = false ->
  (forall o, In o (tobefnz st2) -> heap st o <> None) ->
  (forall o, In o (strcache st2) -> heap st o <> None) ->
  Core (set_cw st2 (negb (cw st2))).
Proof.
  intros st st2 C A S Z Mn R1 R2. pose proof (allcw_shr0 _ _ A S) as A2. set (s := set_cw st2 (negb (cw st2))).
  pose proof (s0_fld _ _ S) as F. destruct F as [Fn [Fu [Fc [Fa [Ff [Fm [Ft [Fr [Fx Fe]]]]]]]]].
  assert (Hin : forall o, heap st o <> None -> heap st2 o <> None).
  { intros o H. destruct (heap st o) as [a|] eqn:E; [|congruence]. destruct (s0_some _ _ S o a E) as [b [Eb _]]. congruence. }
  assert (Dd : forall o, isdead s o = iswhite st2 o).
  { intros o. unfold isdead, iswhite. cbn. destruct (heap st2 o) as [ob|] eqn:E; [|reflexivity].
    destruct (o_col ob) as [w| |] eqn:Cx; try reflexivity. rewrite (A2 o ob w E Cx). destruct (cw st2); reflexivity. }
  assert (Al : forall o, alive s o <-> heap st2 o <> None /\ iswhite st2 o = false) by (intros o; unfold alive; rewrite Dd; reflexivity).
  destruct Z as [Zt Zf Zo Zn Zc Zr Zm Zs Zz]. destruct Zt as [T1 T2 T3].
  assert (Hc : heap st2 (curth st2) <> None).
  { rewrite Ft. apply Hin. destruct (q_root _ C (curth st)) as [Q _]; [apply r_cur; reflexivity | exact Q]. }
  assert (Fxw : forall o, In o (fixedgc st2) -> kind_of st2 o = Some KStr /\ iswhite st2 o = false).
  { intros o I. rewrite Ff in I. destruct (q_fix _ C o I) as [K W]. split; [rewrite (shr0_kind _ _ _ S); exact K | apply (shr0_nw _ _ _ S W)]. }
  assert (Uw : uvwf st2).
  { intros u th i t E. pose proof (s0_uv _ _ S u) as UV. rewrite E in UV.
    destruct (uvs st u) as [[th0 i0 t0|v]|] eqn:E0; cbn in UV; try discriminate.
    destruct UV as [t1 UV]. inversion UV; subst. destruct (q_uvwf _ C u th0 i0 t0 E0) as [ob [Hb I]].
    destruct (s0_some _ _ S th0 ob Hb) as [b [Hb' Sb]]. exists b. split; [exact Hb'|]. rewrite (os_open _ _ Sb). exact I. }
  constructor.
  - exact T1.
  - intros o ob m _. apply T2.
  - exact T3.
  - exact Uw.
  - intros o b u E I. destruct (shr0_inv _ _ _ _ S E) as [a [Ea Sa]]. rewrite (os_open _ _ Sa) in I.
    destruct (q_open _ C o a u Ea I) as [i [t Eu]]. pose proof (s0_uv _ _ S u) as UV. rewrite Eu in UV. cbn in UV. destruct UV as [t1 UV].
    exists i, t1. exact UV.
  - intros o b u E I. destruct (shr0_inv _ _ _ _ S E) as [a [Ea Sa]]. rewrite (os_upv _ _ Sa) in I.
    pose proof (q_upv _ C o a u Ea I) as N. pose proof (s0_uv _ _ S u) as UV. change (uvs s u) with (uvs st2 u).
    destruct (uvs st u) as [[]|]; cbn in UV; [|rewrite UV; discriminate|congruence].
    destruct UV as [t1 UV]. rewrite UV. discriminate.
  - intros u L. change (nextuv st2 <= u) in L. rewrite Fu in L. pose proof (s0_uv _ _ S u) as UV. rewrite (q_fresh _ C u L) in UV. exact UV.
  - exact Fxw.
  - change (In (memerr st2) (fixedgc st2)). rewrite Ff, Fe. apply (q_mem _ C).
  - change (kind_of st2 (curth st2) = Some KThread). rewrite Ft, (shr0_kind _ _ _ S). apply (q_cur _ C).
  - intros a b Aa E. apply Al in Aa. destruct Aa as [Ha Wa]. apply Al.
    assert (E2 : edge st2 a b) by (destruct E; [eapply e_meta | eapply e_val | eapply e_key | eapply e_hval | eapply e_cache | eapply e_closed | eapply e_open]; eassumption).
    split.
    + apply Hin. apply (q_edge _ C a b); [|apply (edge_shr0 _ _ _ _ S E2)]. split; [|apply allcw_dead, A].
      intros N. apply Ha, (s0_none _ _ S a N).
    + destruct E2 as [ob H R | ob H R | ob v H R | ob k H R | ob H R | ob u H I R | ob u th i t tb H I R Ht Hn];
        destruct (Zf a ob H Wa) as [P1 [P2 P3]].
      * apply P2. left. exact R.
      * apply P2. right; left. exact R.
      * apply P2. right; right; left. eauto.
      * apply P2. right; right; right; left. eauto.
      * apply P2. right; right; right; right. exact R.
      * specialize (P3 u I). unfold openok in P3. rewrite R in P3. exact P3.
      * specialize (P3 u I). unfold openok in P3. rewrite R in P3.
        assert (V : uv_val st2 u = VObj b).
        { unfold uv_val. rewrite R, Ht. apply nth_error_nth. exact Hn. }
        destruct P3 as [P3 | P3]; [rewrite V in P3; exact P3|].
        destruct (Zf th tb Ht P3) as [_ [Q2 _]]. apply Q2. right; left. apply (nth_error_In _ _ Hn).
  - intros o R. apply Al.
    assert (Q : forall x, root st x -> heap st2 x <> None) by (intros x Rx; apply Hin, (q_root _ C x Rx)).
    destruct R as [E | E | E | E | E | E | E | E]; cbn in E.
    + subst o. split; [|exact Mn]. apply Q, r_main. congruence.
    + subst o. auto.
    + split; [|apply Zr, E]. apply Q, r_reg. congruence.
    + split; [|apply Zm, E]. apply Q, r_mt. rewrite <- Fx. exact E.
    + split; [|apply Zz, E]. apply Hin, R1, E.
    + split; [|apply Zs, E]. apply Hin, R2, E.
    + split; [|apply (Fxw o E)]. apply Q, r_fixed. rewrite <- Ff. exact E.
    + subst o. split; [apply Q, r_memerr; congruence|]. apply (Fxw (memerr st2)). rewrite Ff, Fe. apply (q_mem _ C).
  - intros o I. apply Al. apply (Zn o I).
  - intros o ob E Ho. rewrite Dd. apply (Zo o ob E Ho).
Qed.

(** ** The atomic phase *)

Lemma Lists_separate : forall st st2 (w : id -> bool), Lists st -> shape st st2 \/ True ->
  (forall o, heap st2 o = None <-> heap st o = None) ->
  (forall o a b, heap st o = Some a -> heap st2 o = Some b -> o_fin b = o_fin a) ->
  allgc st2 = allgc st -> fixedgc st2 = fixedgc st ->
  finobj st2 = filter (fun o => negb (w o)) (finobj st) -> tobefnz st2 = tobefnz st ++ filter w (finobj st) -> Lists st2.
Proof.
  intros st st2 w L _ Hn Hf Ha Hx Ef Et. destruct L as [N H F].
  assert (M : forall x, In x (finobj st2 ++ tobefnz st2) <-> In x (finobj st ++ tobefnz st)).
  { intros x. rewrite Ef, Et, !in_app_iff, !filter_In. destruct (w x) eqn:W; cbn; intuition discriminate. }
  assert (O : forall x, In x (objs st2) <-> In x (objs st)).
  { intros x. unfold objs. rewrite Ha, Hx. specialize (M x). rewrite !in_app_iff in *. tauto. }
  constructor.
  - unfold objs in *. rewrite Ha, Hx, Ef, Et. apply NoDup_split in N. destruct N as [N1 [N D1]]. apply NoDup_split in N. destruct N as [N2 [N D2]].
    apply NoDup_split in N. destruct N as [N3 [N4 D3]].
    apply NoDup_app; [exact N1| |].
    + apply NoDup_app; [apply NoDup_filter, N2| |].
      * apply NoDup_app; [|exact N4|].
        -- apply NoDup_app; [exact N3 | apply NoDup_filter, N2|]. intros x I J. apply filter_In in J. apply (D2 x (proj1 J)). apply in_or_app. auto.
        -- intros x I J. apply in_app_or in I. destruct I as [I | I]; [apply (D3 x I J)|]. apply filter_In in I. apply (D2 x (proj1 I)). apply in_or_app. auto.
      * intros x I J. apply filter_In in I. destruct I as [I Wx]. rewrite !in_app_iff, filter_In in J. destruct J as [[J | J] | J].
        -- apply (D2 x I). apply in_or_app. auto.
        -- destruct J as [_ J]. rewrite J in Wx. discriminate.
        -- apply (D2 x I). apply in_or_app. auto.
    + intros x I J. apply (D1 x I). rewrite !in_app_iff, !filter_In in J. rewrite !in_app_iff.
      destruct J as [[J _] | [[J | [J _]] | J]]; auto.
  - intros x. rewrite O, H. rewrite Hn. reflexivity.
  - intros x xb Hb. destruct (heap st x) as [a|] eqn:E; [|apply Hn in E; congruence]. rewrite M, (Hf x a xb E Hb). apply (F x a E).
Qed.

Lemma atomic_ok_aux : forall st am st2, Core st -> Lists st -> MarkX None st -> shr (set_gcs st GCSatomic) am ->
  (iswhite am (memerr am) = false -> (forall o, In o (tobefnz am) -> iswhite am o = false) -> fixstr am ->
   closed st2 /\ shr0 am st2 /\ gcs st2 = GCSatomic /\
   (exists s, shr am s /\ strm am s /\ finobj st2 = filter (fun o => negb (iswhite s o)) (finobj am) /\
     tobefnz st2 = tobefnz am ++ filter (iswhite s) (finobj am)) /\
   incl (strcache st2) (memerr am :: strcache am)) ->
  Core (set_cw st2 (negb (cw st2))) /\ Lists (set_cw st2 (negb (cw st2))).
Proof.
  intros st am st2 C L M S1 Fin.
  assert (F1 : memerr am = memerr st /\ tobefnz am = tobefnz st /\ finobj am = finobj st /\ strcache am = strcache st).
  { pose proof (sh_fld _ _ S1) as F1. decompose [and] F1. auto. }
  destruct F1 as [X1 [X2 [X3 X4]]].
  assert (Wm : iswhite am (memerr am) = false).
  { apply (shr_nw _ _ _ S1). rewrite X1. apply (q_fix _ C), (q_mem _ C). }
  assert (Wz : forall o, In o (tobefnz am) -> iswhite am o = false).
  { intros o I. apply (shr_nw _ _ _ S1). apply (mk_fnz _ _ M). rewrite <- X2. exact I. }
  assert (Fs : fixstr am) by (apply (fixstr_shr (set_gcs st GCSatomic) _ (fixstr_core _ C) S1)).
  destruct (Fin Wm Wz Fs) as [Z [S2 [_ [[s [Ss [_ [Ef Et]]]] Ic]]]].
  assert (S : shr0 st st2).
  { apply (shr0_trans _ (set_gcs st GCSatomic)); [apply shr0_same; [reflexivity | reflexivity | repeat split; reflexivity]|]. apply (shr0_trans _ _ _ (shr0_shr _ _ S1) S2). }
  destruct (s0_fld _ _ S) as [Fn [Fu [Fc [Fa [Ff [Fm [Ft [Fr [Fx Fe]]]]]]]]]. split.
  - apply (Core_flip st st2 C (mk_cw _ _ M) S Z).
    + rewrite Fm. apply (shr0_nw _ _ _ S), (mk_main _ _ M).
    + intros o I. rewrite Et in I. apply in_app_or in I. apply (l_heap _ L), in_objs. destruct I as [I | I].
      * rewrite X2 in I. auto.
      * apply filter_In in I. destruct I as [I _]. rewrite X3 in I. auto.
    + intros o I. apply Ic in I. destruct I as [<- | I].
      * rewrite X1. apply (l_heap _ L), in_objs. pose proof (q_mem _ C). auto.
      * rewrite X4 in I. apply (q_root _ C). apply r_cache, I.
  - apply (Lists_shape st2); [|apply shape_same; reflexivity].
    apply (Lists_separate st st2 (iswhite s) L (or_intror Logic.I)).
    + intros o. split; [|apply (s0_none _ _ S)]. intros E. destruct (heap st o) as [a|] eqn:Ea; [|reflexivity].
      destruct (s0_some _ _ S o a Ea) as [b [Eb _]]. congruence.
    + intros o a b Ea Eb. destruct (s0_some _ _ S o a Ea) as [b' [Eb' Sb]]. rewrite Eb in Eb'. inversion Eb'; subst b'. apply (os_fin _ _ Sb).
    + exact Fa.
    + exact Ff.
    + rewrite Ef, X3. reflexivity.
    + rewrite Et, X2, X3. reflexivity.
Qed.

Lemma atomic_ok : forall st, Core st -> Lists st -> MarkX None st -> Core (atomic st) /\ Lists (atomic st).
Proof.
  intros st C L M. destruct (atomic_mark_ok st (mk_ci _ _ M) (q_uvwf _ C) (fixstr_core _ C)) as [K S1].
  apply (atomic_ok_aux st (atomic_mark st) (atomic_fin (atomic_mark st)) C L M S1).
  intros Wm Wz Fs. apply (atomic_fin_ok (atomic_mark st) K Fs Wm Wz).
Qed.

(** ** Start of a cycle *)

Lemma Swp_done : forall st, Swp st -> unswept st = [] -> forall o ob, heap st o = Some ob -> In o (fixedgc st) \/ o_col ob = White (cw st).
Proof. intros st S U o ob H. destruct (S o ob H) as [Q | Q]; [rewrite U in Q; destruct Q | exact Q]. Qed.

Lemma white_allcw : forall st, Core st -> (forall o ob, heap st o = Some ob -> In o (fixedgc st) \/ o_col ob = White (cw st)) -> allcw st.
Proof.
  intros st C H o ob w Ho Cx. destruct (H o ob Ho) as [Q | Q]; [|congruence].
  destruct (q_fix _ C o Q) as [_ W]. unfold iswhite in W. rewrite Ho, Cx in W. discriminate.
Qed.

Lemma Core_mrel : forall st st', Core st -> allcw st -> mrel st st' -> Core st' /\ allcw st'.
Proof.
  intros st st' C A M. pose proof (mrel_fields _ _ M) as F. decompose [and] F. clear F.
  apply (Core_shr0 st st' C A (shr0_shr _ _ (shr_mrel _ _ M))).
  - intros o I. apply (q_tw _ C). congruence.
  - intros o ob E Ho. destruct (mrel_some_inv _ _ _ _ M E) as [a [Ea [Q _]]]. replace (twups st') with (twups st) by congruence.
    destruct (q_twopen _ C o a Ea) as [P | P]; [rewrite Q in Ho; exact Ho | exact P|]. rewrite (allcw_dead _ _ A) in P. discriminate.
  - intros o I. apply (q_root _ C o). apply r_fin. congruence.
  - intros o I. apply (q_root _ C o). apply r_cache. congruence.
Qed.

Lemma restart_ok : forall st, Core st -> Lists st -> Swp st -> unswept st = [] ->
  let st' := set_gcs (restartcollection st) GCSpropagate in Core st' /\ Lists st' /\ MarkX None st'.
Proof.
  intros st C L S U. pose proof (Swp_done st S U) as H. pose proof (white_allcw st C H) as A. cbv zeta.
  unfold restartcollection. set (s0 := set_lists st [] [] [] [] []).
  assert (C0 : Core s0) by (apply (Core_lists st s0 C); reflexivity).
  assert (A0 : allcw s0) by exact A.
  assert (T0 : typ s0) by (apply (typ_core s0 C0 A0)).
  destruct (mark_ok s0 (mainth s0) T0) as [M1 N1]. set (s1 := mark s0 (mainth s0)) in *. pose proof (typ_mrel _ _ T0 M1) as T1.
  destruct (mark_val_ok s1 (registry s1) T1) as [M2 _]. set (s2 := mark_val s1 (registry s1)) in *. pose proof (typ_mrel _ _ T1 M2) as T2.
  destruct (mark_opts_ok (mts s2) s2 T2) as [M3 _]. fold (markmt s2) in M3. set (s3 := markmt s2) in *. pose proof (typ_mrel _ _ T2 M3) as T3.
  destruct (mark_list_ok (tobefnz s3) s3 T3) as [M4 N4]. fold (markbeingfnz s3) in M4, N4. set (s4 := markbeingfnz s3) in *.
  pose proof (mrel_trans _ _ _ M1 (mrel_trans _ _ _ M2 (mrel_trans _ _ _ M3 M4))) as M.
  destruct (Core_mrel _ _ C0 A0 M) as [C4 A4]. pose proof (mrel_fields _ _ M) as F. cbn in F. decompose [and] F. clear F.
  split; [apply (Core_lists s4 _ C4); reflexivity|]. split.
  { apply (Lists_shape st); [exact L|]. apply (shape_trans _ s0); [apply shape_same; reflexivity|].
    apply (shape_trans _ s4); [apply shape_shr, shr_mrel, M | apply shape_same; reflexivity]. }
  assert (MX0 : forall ex, CI MA [] ex s0).
  { intros ex. constructor.
    - exact T0.
    - intros o ob n Ho Wo. left. destruct (H o ob Ho) as [Q | Q]; [exact Q|]. unfold iswhite in Wo. rewrite Ho, Q in Wo. discriminate.
    - intros o ob Ho Hx. left. destruct (q_twopen _ C0 o ob Ho Hx) as [Q | Q]; [exact Q|]. rewrite (allcw_dead _ _ A0) in Q. discriminate.
    - constructor; cbn; [constructor | contradiction | contradiction]. }
  constructor.
  - apply (CI_same MA [] None s4); try reflexivity. apply (CI_mrel _ _ _ _ _ (MX0 None) M).
  - exact A4.
  - intros o ob Ho Cx. destruct (mrel_some_inv _ _ _ _ M Ho) as [a [Ha [_ Q2]]].
    destruct Q2 as [Q2 | [_ [[Q2 _] | [_ [_ Q2]]]]]; [|congruence | left; exact Q2]. right; right; right.
    change (In o (fixedgc s4)). replace (fixedgc s4) with (fixedgc st) by congruence.
    destruct (H o a Ha) as [Q | Q]; [exact Q | congruence].
  - cbn. congruence.
  - cbn. congruence.
  - change (iswhite s4 (mainth s4) = false). replace (mainth s4) with (mainth s0) by (cbn; congruence).
    apply (mrel_nw _ _ _ M4), (mrel_nw _ _ _ M3), (mrel_nw _ _ _ M2), N1.
  - intros o I. change (In o (tobefnz s4)) in I. change (iswhite s4 o = false). apply N4.
    pose proof (mrel_fields _ _ M4) as F4. decompose [and] F4. congruence.
Qed.

(** ** Propagation *)

Lemma propagate_ok : forall st, Core st -> Lists st -> MarkX None st -> gcs st = GCSpropagate -> gray st <> [] ->
  let st' := propagatemark st in Core st' /\ Lists st' /\ MarkX None st' /\ gcs st' = GCSpropagate.
Proof.
  intros st C L M G N. cbv zeta. destruct (propagatemark_ok MA [] st (mk_ci _ _ M) G N) as [C1 [S1 _]].
  destruct (ggs_propagatemark st) as [Hg Hk]. destruct (Hk G) as [K1 [K2 K3]]; [split; [apply (mk_gg _ _ M) | split; [apply (mk_weak _ _ M) | apply (mk_eph _ _ M)]]|].
  pose proof (sh_fld _ _ S1) as F. decompose [and] F. clear F.
  destruct (Core_shr0 st (propagatemark st) C (mk_cw _ _ M) (shr0_shr _ _ S1)) as [C' A'].
  - intros o I. apply twups_propagatemark in I. apply in_app_or in I. destruct I as [I | I]; [apply (q_tw _ C o I)|].
    destruct (gray st) as [|g gs] eqn:E; [congruence|]. destruct I as [<- | []].
    destruct (g_col _ _ (c_gl _ _ _ _ (mk_ci _ _ M)) g) as [ob [Hb _]]; [apply in_glists; left; rewrite E; left; reflexivity | congruence].
  - intros o ob E Ho. destruct (c_tw _ _ _ _ C1 o ob E Ho) as [Q | [Q _]]; [exact Q | discriminate].
  - intros o I. apply (q_root _ C o). apply r_fin. congruence.
  - intros o I. apply (q_root _ C o). apply r_cache. congruence.
  - split; [exact C'|]. split; [apply (Lists_shape st _ L), shape_shr, S1|]. split; [|congruence].
    constructor; try assumption.
    + replace (mainth (propagatemark st)) with (mainth st) by congruence. apply (shr_nw _ _ _ S1), (mk_main _ _ M).
    + intros o I. apply (shr_nw _ _ _ S1), (mk_fnz _ _ M). congruence.
Qed.

(** ** Sweeping *)

Lemma next_ptr_none : forall p kept rest, next_ptr p kept rest = None -> rest = [].
Proof. intros p kept [|x rest] H; [reflexivity|]. unfold next_ptr in H. destruct (rev kept); discriminate. Qed.

(** What is still unswept after a step on the list [pre ++ suf]. *)
Lemma behind_step : forall p l kept rest x, NoDup (fst (split_ptr p l) ++ kept ++ rest) -> snd (split_ptr p l) <> [] -> In x rest ->
  exists q, next_ptr p kept rest = Some q /\ In x (snd (split_ptr q (fst (split_ptr p l) ++ kept ++ rest))).
Proof.
  intros p l kept rest x N S I. destruct (next_ptr p kept rest) as [q|] eqn:E.
  - exists q. split; [reflexivity|]. rewrite (next_ptr_split p l kept rest q N S E). exact I.
  - apply next_ptr_none in E. subst. destruct I.
Qed.

Definition sweeping (g : gcstate) : Prop := g = GCSswpallgc \/ g = GCSswpfinobj \/ g = GCSswptobefnz.

Lemma sweepstep_some : forall st p next nl, Core st -> Lists st -> Swp st -> sweeping (gcs st) -> sweepgc st = Some p ->
  let st' := sweepstep st next nl in Core st' /\ Lists st' /\ Swp st' /\ gcs st' = gcs st.
Proof.
  intros st p next nl C L S G P. cbv zeta. unfold sweepstep. rewrite P.
  pose proof (split_ptr_app p (swlist st)) as Sp. destruct (split_ptr p (swlist st)) as [pre suf] eqn:Es. cbn [fst snd] in Sp.
  assert (Dp : pre = fst (split_ptr p (swlist st)) /\ suf = snd (split_ptr p (swlist st))) by (rewrite Es; split; reflexivity).
  destruct Dp as [Dp Dsuf].
  assert (Sw : NoDup (swlist st) /\ sweepable st suf).
  { destruct (NoDup_lists st L) as [N1 [N2 N3]]. unfold swlist in *.
    destruct G as [G | [G | G]]; rewrite G in *; (split; [assumption|]);
      [apply (sweepable_allgc st suf L) | apply (sweepable_finobj st suf L) | apply (sweepable_tobefnz st suf L)]; intros x I; rewrite <- Sp; apply in_or_app; auto. }
  destruct Sw as [Nd Sw].
  assert (Ns : NoDup suf) by (rewrite <- Sp in Nd; apply NoDup_split in Nd; tauto).
  pose proof (sweeplist_ok suf GCSWEEPMAX st C Ns Sw) as W. cbv zeta in W. destruct (sweeplist GCSWEEPMAX st suf) as [[s kept] rest]. cbn [fst snd] in W.
  destruct (frest_fields _ _ (proj1 (w_rest _ _ _ _ _ W))) as [Hn [Hc [Hg [Ha [Hf [Ht [Hx _]]]]]]].
  assert (Nk : NoDup (fst (split_ptr p (swlist st)) ++ kept ++ rest)).
  { rewrite <- Dp. destruct (w_sub _ _ _ _ _ W) as [Nk Sub]. rewrite <- Sp in Nd. rewrite <- (app_nil_r (kept ++ rest)).
    apply (NoDup_mid _ pre suf []); [rewrite app_nil_r; exact Nd | exact Nk | exact Sub]. }
  assert (Bx : forall x, In x rest -> exists q, next_ptr p kept rest = Some q /\ In x (snd (split_ptr q (pre ++ kept ++ rest)))).
  { intros x I. rewrite Dp. apply (behind_step p (swlist st) kept rest x Nk); [|exact I].
    rewrite <- Dsuf. pose proof (proj2 (w_sub _ _ _ _ _ W) x (in_or_app _ _ _ (or_intror I))) as J. intros Z. rewrite Z in J. destruct J. }
  assert (Old : forall x xb, heap s x = Some xb -> In x suf \/ exists yb, heap st x = Some yb /\ yb = xb).
  { intros x xb Hb. destruct (in_dec Nat.eq_dec x suf) as [I | I]; [auto|]. right. exists xb. rewrite (w_out _ _ _ _ _ W x I) in Hb. auto. }
  unfold set_swlist. rewrite Hg. unfold swlist in *. unfold Swp, unswept, behind in S. rewrite P in S.
  destruct G as [G | [G | G]]; rewrite G in *.
  - split; [apply Core_objs; [apply (w_core _ _ _ _ _ W) | auto]|]. split.
    { rewrite Hf, Ht. apply (Lists_shape (set_objs s (pre ++ kept ++ rest) (finobj st) (tobefnz st))); [|apply shape_same; reflexivity].
      apply (Lists_sweep_allgc st s pre suf kept rest L); [congruence | exact W]. }
    split; [|cbn; congruence]. intros x xb Hb. cbn in Hb. unfold unswept. cbn [gcs set_sweepgc set_objs]. rewrite Hg. unfold behind. cbn [sweepgc set_sweepgc allgc set_objs finobj tobefnz fixedgc cw].
    rewrite Hx, Hc, Hf, Ht. destruct (Old x xb Hb) as [I | [yb [Hy <-]]].
    + destruct (swept_col _ _ _ _ _ x xb W Hb I) as [Q | Q]; [|auto]. destruct (Bx x Q) as [q [-> Jq]]. left. apply in_or_app. auto.
    + destruct (in_dec Nat.eq_dec x suf) as [I | I].
      * destruct (swept_col _ _ _ _ _ x yb W Hb I) as [Q | Q]; [|auto]. destruct (Bx x Q) as [q [-> Jq]]. left. apply in_or_app. auto.
      * destruct (S x yb Hy) as [Q | Q]; [|auto]. rewrite <- Dsuf in Q. apply in_app_or in Q. destruct Q as [Q | Q]; [contradiction|]. left. apply in_or_app. auto.
  - split; [apply Core_objs; [apply (w_core _ _ _ _ _ W) | auto]|]. split.
    { rewrite Ha, Ht. apply (Lists_shape (set_objs s (allgc st) (pre ++ kept ++ rest) (tobefnz st))); [|apply shape_same; reflexivity].
      apply (Lists_sweep_finobj st s pre suf kept rest L); [congruence | exact W]. }
    split; [|cbn; congruence]. intros x xb Hb. cbn in Hb. unfold unswept. cbn [gcs set_sweepgc set_objs]. rewrite Hg. unfold behind. cbn [sweepgc set_sweepgc allgc set_objs finobj tobefnz fixedgc cw].
    rewrite Hx, Hc, Ht. destruct (in_dec Nat.eq_dec x suf) as [I | I].
    + destruct (swept_col _ _ _ _ _ x xb W Hb I) as [Q | Q]; [|auto]. destruct (Bx x Q) as [q [-> Jq]]. left. apply in_or_app. auto.
    + rewrite (w_out _ _ _ _ _ W x I) in Hb. destruct (S x xb Hb) as [Q | Q]; [|auto]. rewrite <- Dsuf in Q. apply in_app_or in Q. destruct Q as [Q | Q]; [contradiction|]. left. apply in_or_app. auto.
  - split.
    { apply Core_objs; [apply (w_core _ _ _ _ _ W)|]. intros x I. rewrite Ht. apply (tobefnz_kept st s pre suf kept rest C (eq_sym Sp) W x I). }
    split.
    { rewrite Ha, Hf. apply (Lists_shape (set_objs s (allgc st) (finobj st) (pre ++ kept ++ rest))); [|apply shape_same; reflexivity].
      apply (Lists_sweep_tobefnz st s pre suf kept rest L); [congruence | exact W]. }
    split; [|cbn; congruence]. intros x xb Hb. cbn in Hb. unfold unswept. cbn [gcs set_sweepgc set_objs]. rewrite Hg. unfold behind. cbn [sweepgc set_sweepgc allgc set_objs finobj tobefnz fixedgc cw].
    rewrite Hx, Hc. destruct (in_dec Nat.eq_dec x suf) as [I | I].
    + destruct (swept_col _ _ _ _ _ x xb W Hb I) as [Q | Q]; [|auto]. destruct (Bx x Q) as [q [-> Jq]]. left. exact Jq.
    + rewrite (w_out _ _ _ _ _ W x I) in Hb. destruct (S x xb Hb) as [Q | Q]; [|auto]. rewrite <- Dsuf in Q. contradiction.
Qed.

Lemma sweepstep_none : forall st next nl, Core st -> Lists st -> Swp st -> sweepgc st = None ->
  (forall x, In x (unswept st) -> In x (unswept (set_sweepgc (set_gcs st next) nl))) ->
  let st' := sweepstep st next nl in Core st' /\ Lists st' /\ Swp st' /\ gcs st' = next.
Proof.
  intros st next nl C L S P U. cbv zeta. unfold sweepstep. rewrite P.
  split; [apply (Core_lists st _ C); reflexivity|]. split; [apply (Lists_shape st _ L), shape_same; reflexivity|].
  split; [|reflexivity]. intros x xb Hb. destruct (S x xb Hb) as [Q | Q]; [left; apply U, Q | right; exact Q].
Qed.

Lemma Phase_swp : forall st, Swp st -> gcs st <> GCSatomic -> gcs st <> GCSpropagate -> gcs st <> GCSenteratomic -> Phase st.
Proof. intros st S. unfold Phase. destruct (gcs st); intros; try congruence; exact S. Qed.

(** ** Running finalisers *)

Lemma alive_modify_col : forall st o f x, (forall b, o_col (f b) = o_col b) -> (alive (modify st o f) x <-> alive st x).
Proof.
  intros st o f x Hf. unfold alive, isdead. destruct (modify_all st o f) as [_ [_ [_ [E _]]]]. rewrite E, heap_modify.
  destruct (Nat.eqb_spec x o) as [->|]; [|reflexivity]. destruct (heap st o) as [ob|]; cbn; [|tauto]. rewrite Hf.
  split; intros [_ Q]; (split; [discriminate | exact Q]).
Qed.

Lemma push_okmod : forall st v, Core st -> (forall x, v = VObj x -> alive st x) ->
  forall b, heap st (curth st) = Some b ->
  okmod st (curth st) b (with_top (with_vals b (firstn (o_top b) (o_vals b) ++ v :: skipn (S (o_top b)) (o_vals b))) (S (o_top b))).
Proof.
  intros st v C Av b Hb. pose proof (q_cur _ C) as K. unfold kind_of in K. rewrite Hb in K. inversion K as [K1].
  pose proof (q_kwf _ C _ _ Hb) as W. unfold kwf in W. rewrite K1 in W. destruct W as [W1 [W2 [W3 W4]]].
  assert (In_ : forall x, In (VObj x) (firstn (o_top b) (o_vals b) ++ v :: skipn (S (o_top b)) (o_vals b)) -> In (VObj x) (o_vals b) \/ v = VObj x).
  { intros x I. apply in_app_or in I. destruct I as [I | [I | I]]; [left; apply (firstn_In_ _ _ _ _ I) | right; exact I | left; apply (skipn_In_ _ _ _ _ I)]. }
  constructor; cbn [o_kind o_col o_open o_meta o_vals o_upv with_top with_vals]; try reflexivity; auto.
  - unfold kwf. cbn. rewrite K1. auto.
  - intros x [R | [R | [[y R] | [[y R] | R]]]]; cbn in R.
    + left. left. exact R.
    + destruct (In_ x R) as [Q | Q]; [left; right; left; exact Q | right; apply Av, Q].
    + left. right; right; left. exists y. exact R.
    + left. right; right; right; left. exists y. exact R.
    + left. right; right; right; right. exact R.
  - intros i x R. destruct (Nat.lt_ge_cases i (length (firstn (o_top b) (o_vals b)))) as [Li | Li].
    + left. rewrite nth_error_app1 in R by exact Li. rewrite nth_error_firstn_lt in R; [exact R|]. rewrite firstn_length in Li. lia.
    + rewrite nth_error_app2 in R by exact Li. destruct (i - length (firstn (o_top b) (o_vals b))) as [|j] eqn:Ej; cbn [nth_error] in R.
      * right. inversion R. apply Av. assumption.
      * rewrite firstn_length in *. destruct (Nat.le_gt_cases (o_top b) (length (o_vals b))) as [Lt | Lt].
        -- left. rewrite nth_error_skipn in R. rewrite Nat.min_l in Ej, Li by exact Lt. replace i with (S (o_top b) + j) by lia. exact R.
        -- rewrite skipn_all2 in R by lia. destruct j; discriminate.
Qed.

Lemma Core_push : forall st v, Core st -> (forall x, v = VObj x -> alive st x) -> Core (push st v).
Proof. intros st v C A. apply (Core_modify st _ _ C). intros b Hb. apply (push_okmod st v C A b Hb). Qed.

(** Colours, positions and lists as before, up to objects that became white. *)
Lemma Swp_keep : forall st st', Swp st -> gcs st' = gcs st -> sweepgc st' = sweepgc st -> allgc st' = allgc st -> finobj st' = finobj st ->
  tobefnz st' = tobefnz st -> fixedgc st' = fixedgc st -> cw st' = cw st ->
  (forall o b, heap st' o = Some b -> o_col b = White (cw st) \/ exists a, heap st o = Some a /\ (o_col b = o_col a \/ is_whitec (o_col a) = false)) -> Swp st'.
Proof.
  intros st st' S G P Ha Hf Ht Hx Hc H o b Hb. unfold unswept, behind. rewrite G, P, Ha, Hf, Ht, Hx, Hc.
  destruct (H o b Hb) as [Q | [a [Ea Q]]]; [auto|]. destruct (S o a Ea) as [R | [R | R]]; [left; exact R | auto|].
  destruct Q as [Q | Q]; [right; right; congruence | rewrite R in Q; discriminate].
Qed.

Lemma Swp_modify : forall st o f, Swp st -> (forall b, o_col (f b) = o_col b) -> Swp (modify st o f).
Proof.
  intros st o f S Hf. destruct (modify_all st o f) as [_ [_ [_ [E4 [E5 [E6 [E7 [E8 [E9 [E10 _]]]]]]]]]].
  apply (Swp_keep st); try assumption. intros x b Hb. right. rewrite heap_modify in Hb. destruct (Nat.eqb_spec x o) as [->|]; [|eauto].
  destruct (heap st o) as [a|]; [|discriminate]. cbn in Hb. inversion Hb; subst. exists a. split; [reflexivity | left; apply Hf].
Qed.

Lemma okmod_fin : forall st o b fl, Core st -> heap st o = Some b -> okmod st o b (with_fin b fl).
Proof.
  intros st o b fl C Hb. constructor; cbn; auto. apply (q_kwf _ C o b Hb).
Qed.

Lemma gctm_ok : forall st, Core st -> Lists st -> Swp st -> gcs st = GCScallfin ->
  let st' := gctm st in Core st' /\ Lists st' /\ Swp st' /\ gcs st' = GCScallfin.
Proof.
  intros st C L S G. cbv zeta. unfold gctm. destruct (tobefnz st) as [|o l] eqn:Et; [auto|].
  set (s1 := set_objs st (o :: allgc st) (finobj st) l).
  assert (C1 : Core s1).
  { apply (Core_same st s1 C); try reflexivity; [apply (q_cur _ C)|]. intros x R. apply (q_root _ C).
    destruct R as [R | R | R | R | R | R | R | R]; [apply r_main | apply r_cur | apply r_reg | apply r_mt | apply r_fin; rewrite Et; right | apply r_cache | apply r_fixed | apply r_memerr]; exact R. }
  assert (Ao : alive st o) by (apply (q_root _ C), r_fin; rewrite Et; left; reflexivity).
  set (s2 := modify s1 o (fun b => with_fin b false)).
  assert (C2 : Core s2) by (apply (Core_modify s1 _ _ C1); intros b Hb; apply (okmod_fin s1 o b false C1 Hb)).
  pose proof (modify_all s1 o (fun b => with_fin b false)) as FF. fold s2 in FF. destruct FF as [F1 [F2 [F3 [F4 [F5 [F6 [F7 [F8 [F9 [F10 [F11 [F12 [F13 [F14 [F15 [F16 F17]]]]]]]]]]]]]]]].
  assert (L2 : Lists s2).
  { destruct L as [N H F]. unfold objs in *. rewrite Et in N, F. 
    assert (H' : forall x, In x (allgc st ++ finobj st ++ (o :: l) ++ fixedgc st) <-> heap st x <> None) by (intros x; rewrite <- H, Et; reflexivity).
    assert (Pm : Permutation (allgc st ++ finobj st ++ (o :: l) ++ fixedgc st) (o :: allgc st ++ finobj st ++ l ++ fixedgc st)).
    { rewrite !app_assoc. rewrite <- app_assoc. cbn. rewrite <- (app_assoc (allgc st ++ finobj st) l). symmetry. apply Permutation_middle. }
    pose proof (Permutation_NoDup Pm N) as N2.
    constructor; unfold objs.
    - replace (allgc s2) with (o :: allgc st) by (symmetry; assumption). replace (finobj s2) with (finobj st) by (symmetry; assumption).
      replace (tobefnz s2) with l by (symmetry; assumption). replace (fixedgc s2) with (fixedgc st) by (symmetry; assumption). exact N2.
    - replace (allgc s2) with (o :: allgc st) by (symmetry; assumption). replace (finobj s2) with (finobj st) by (symmetry; assumption).
      replace (tobefnz s2) with l by (symmetry; assumption). replace (fixedgc s2) with (fixedgc st) by (symmetry; assumption).
      intros x. cbn [app].
      assert (E : heap s2 x <> None <-> heap st x <> None).
      { unfold s2. rewrite heap_modify. change (heap s1) with (heap st). destruct (Nat.eqb_spec x o) as [->|]; [|reflexivity].
        destruct (heap st o); cbn; split; congruence. }
      rewrite E, <- H'. split; intros I; [apply (Permutation_in x (Permutation_sym Pm) I) | apply (Permutation_in x Pm I)].
    - replace (finobj s2) with (finobj st) by (symmetry; assumption). replace (tobefnz s2) with l by (symmetry; assumption).
      intros x b Hb. unfold s2 in Hb. rewrite heap_modify in Hb. change (heap s1) with (heap st) in Hb. destruct (Nat.eqb_spec x o) as [->|n].
      + destruct (heap st o) as [a|]; [|discriminate]. cbn in Hb. inversion Hb; subst b. cbn. split; [discriminate|]. intros I. exfalso.
        inversion N2 as [|? ? N3 _]; subst. apply N3. apply in_app_or in I. rewrite !in_app_iff. tauto.
      + rewrite (F x b Hb). rewrite !in_app_iff. cbn. split; [intros [I | [I | I]]; [auto | congruence | auto] | tauto]. }
  assert (S2 : Swp s2).
  { intros x b Hb. replace (fixedgc s2) with (fixedgc st) by (symmetry; assumption). replace (cw s2) with (cw st) by (symmetry; assumption). right.
    unfold s2 in Hb. rewrite heap_modify in Hb. change (heap s1) with (heap st) in Hb.
    assert (U : unswept st = []) by (unfold unswept; rewrite G; reflexivity).
    destruct (Nat.eqb_spec x o) as [->|n]; [|apply (Swp_done st S U x b Hb)].
    destruct (heap st o) as [a|] eqn:Ea; [|discriminate]. cbn in Hb. inversion Hb; subst b. apply (Swp_done st S U o a Ea). }
  assert (G2 : gcs s2 = GCScallfin) by (rewrite F5; exact G).
  assert (Ip : issweepphase s2 = false) by (unfold issweepphase; rewrite G2; reflexivity).
  rewrite Ip. destruct (heap s2 o) as [ob|] eqn:Eo; [|auto]. destruct (gcfield s2 ob); [|auto].
  assert (Ao2 : alive s2 o) by (apply alive_modify_col; [reflexivity | exact Ao]).
  split; [apply (Core_push s2 _ C2); intros x Q; inversion Q; subst; exact Ao2|].
  split; [apply (Lists_shape s2 _ L2), shape_modify; reflexivity|].
  split; [apply (Swp_modify s2 _ _ S2); reflexivity|].
  unfold push. rewrite <- G2. apply modify_all.
Qed.

(** ** Steps of the collector keep the invariant *)

Lemma Core_gcs : forall st g, Core st -> Core (set_gcs st g).
Proof. intros st g C. apply (Core_lists st _ C); reflexivity. Qed.
Lemma Lists_gcs : forall st g, Lists st -> Lists (set_gcs st g).
Proof. intros st g L. apply (Lists_shape st _ L), shape_same; reflexivity. Qed.
Lemma MarkX_gcs : forall st g ex, MarkX ex st -> MarkX ex (set_gcs st g).
Proof. intros st g ex M. apply (MarkX_uvs ex st _ M); try reflexivity; auto using incl_refl. Qed.

Theorem collector_inv : forall st e, Inv st -> (exists em, e = GStep em) \/ e = GAbort \/ e = GHurry -> Inv (step st e).
Proof.
  intros st e [C [L P]] [[em ->] | [-> | ->]]; cbn [step].
  - unfold singlestep. unfold Phase in P. destruct (gcs st) eqn:G.
    + destruct (gray st) as [|g gs] eqn:Eg.
      * split; [apply Core_gcs, C|]. split; [apply Lists_gcs, L|]. unfold Phase. cbn. apply MarkX_gcs, P.
      * destruct (propagate_ok st C L P G) as [C' [L' [M' G']]]; [rewrite Eg; discriminate|]. split; [exact C'|]. split; [exact L'|]. unfold Phase. rewrite G'. exact M'.
    + destruct (atomic_ok st C L P) as [C1 L1]. destruct (entersweep_ok (atomic st) C1 L1) as [C2 [L2 [S2 G2]]].
      split; [exact C2|]. split; [exact L2|]. unfold Phase. rewrite G2. exact S2.
    + destruct P.
    + destruct (sweepgc st) as [p|] eqn:Ep.
      * destruct (sweepstep_some st p GCSswpfinobj (Some PHead) C L P) as [C2 [L2 [S2 G2]]]; [rewrite G; left; reflexivity | exact Ep|].
        split; [exact C2|]. split; [exact L2|]. unfold Phase. rewrite G2, G. exact S2.
      * destruct (sweepstep_none st GCSswpfinobj (Some PHead) C L P Ep) as [C2 [L2 [S2 G2]]].
        { unfold unswept, behind. cbn. rewrite G, Ep. auto. }
        split; [exact C2|]. split; [exact L2|]. unfold Phase. rewrite G2. exact S2.
    + destruct (sweepgc st) as [p|] eqn:Ep.
      * destruct (sweepstep_some st p GCSswptobefnz (Some PHead) C L P) as [C2 [L2 [S2 G2]]]; [rewrite G; right; left; reflexivity | exact Ep|].
        split; [exact C2|]. split; [exact L2|]. unfold Phase. rewrite G2, G. exact S2.
      * destruct (sweepstep_none st GCSswptobefnz (Some PHead) C L P Ep) as [C2 [L2 [S2 G2]]].
        { unfold unswept, behind. cbn. rewrite G, Ep. auto. }
        split; [exact C2|]. split; [exact L2|]. unfold Phase. rewrite G2. exact S2.
    + destruct (sweepgc st) as [p|] eqn:Ep.
      * destruct (sweepstep_some st p GCSswpend None C L P) as [C2 [L2 [S2 G2]]]; [rewrite G; right; right; reflexivity | exact Ep|].
        split; [exact C2|]. split; [exact L2|]. unfold Phase. rewrite G2, G. exact S2.
      * destruct (sweepstep_none st GCSswpend None C L P Ep) as [C2 [L2 [S2 G2]]].
        { unfold unswept, behind. cbn. rewrite G, Ep. auto. }
        split; [exact C2|]. split; [exact L2|]. unfold Phase. rewrite G2. exact S2.
    + split; [apply Core_gcs, C|]. split; [apply Lists_gcs, L|]. unfold Phase. cbn.
      intros x b Hb. destruct (P x b Hb) as [Q | Q]; [unfold unswept in Q; rewrite G in Q; destruct Q | auto].
    + assert (Pz : Inv (set_gcs st GCSpause)).
      { split; [apply Core_gcs, C|]. split; [apply Lists_gcs, L|]. unfold Phase. cbn.
        intros x b Hb. destruct (P x b Hb) as [Q | Q]; [unfold unswept in Q; rewrite G in Q; destruct Q | auto]. }
      destruct (tobefnz st) as [|z zs] eqn:Ez; [exact Pz|]. destruct em; [exact Pz|].
      destruct (gctm_ok st C L P G) as [C2 [L2 [S2 G2]]]. split; [exact C2|]. split; [exact L2|]. unfold Phase. rewrite G2. exact S2.
    + destruct (restart_ok st C L P) as [C2 [L2 M2]]; [unfold unswept; rewrite G; reflexivity|].
      split; [exact C2|]. split; [exact L2|]. unfold Phase. cbn. exact M2.
  - destruct (keepinvariant st) eqn:Kp; [|exact (conj C (conj L P))].
    destruct (entersweep_ok st C L) as [C2 [L2 [S2 G2]]]. split; [exact C2|]. split; [exact L2|]. unfold Phase. rewrite G2. exact S2.
  - unfold is_propagate. unfold Phase in P. destruct (gcs st) eqn:G; try (split; [exact C|]; split; [exact L|]; unfold Phase; rewrite G; exact P).
    split; [apply Core_gcs, C|]. split; [apply Lists_gcs, L|]. unfold Phase. cbn. apply MarkX_gcs, P.
Qed.
