(** Propagation: closures, prototypes, threads, and emptying the gray list. *)
From Coq Require Import ZArith List Bool Arith Lia.
From Verif Require Import Base Gc_model Gc_spec Gc_facts Gc_tri Gc_trav.
Import ListNotations.
Local Open Scope nat_scope.

Lemma existsb_eqb_In : forall o l, existsb (Nat.eqb o) l = true <-> In o l.
Proof.
  intros o l. rewrite existsb_exists. split.
  - intros [x [I E]]. apply Nat.eqb_eq in E. subst x. exact I.
  - intros I. exists o. split; [exact I | apply Nat.eqb_refl].
Qed.

(** ** Changing the 'touched' flag of an open upvalue *)

Definition touch (st : gst) (u : nat) (th : id) (i : nat) (t : bool) : gst :=
  set_uvs st (fun x => if Nat.eqb x u then Some (UOpen th i t) else uvs st x) (nextuv st).

Lemma shr_touch : forall st u th i t0 t, uvs st u = Some (UOpen th i t0) -> shr st (touch st u th i t).
Proof.
  intros st u th i t0 t H. constructor; cbn.
  - auto.
  - intros o a E. exists a. split; [exact E | apply osub_refl].
  - intros x. destruct (Nat.eqb_spec x u) as [->|]; [rewrite H; cbn; eauto | apply usub_refl].
  - repeat split.
Qed.

Lemma CI_uvs : forall m E ex st st', CI m E ex st -> shr st st' -> (forall u, upg m (uvs st u) (uvs st' u)) ->
  heap st' = heap st -> gray st' = gray st -> grayagain st' = grayagain st -> weak st' = weak st -> allweak st' = allweak st ->
  ephemeron st' = ephemeron st -> incl (twups st) (twups st') -> CI m E ex st'.
Proof.
  intros m E ex st st' [T C W G] S U H F1 F2 F3 F4 F5 F6.
  assert (Wx : forall x, iswhite st' x = iswhite st x) by (intros x; unfold iswhite; rewrite H; reflexivity).
  constructor.
  - apply (typ_shr _ _ T S).
  - apply (TC_mono m E ex st st' C S U); rewrite ?F1, ?F2, ?F3, ?F4, ?F5; auto using incl_refl.
    intros x ob' _ _ W1 W2. rewrite Wx in W2. congruence.
  - apply (TW_mono m E ex st st' W S F6); rewrite ?F1; auto. intros x ob' _ _ W1 W2. rewrite Wx in W2. congruence.
  - destruct G as [N Col Tab].
    assert (Ls : glists E st' = glists E st) by (unfold glists; rewrite F1, F2, F3, F4, F5; reflexivity).
    constructor.
    + rewrite Ls. exact N.
    + rewrite Ls, H. exact Col.
    + rewrite F3, F4, F5. intros x I. rewrite (shr_kind _ _ _ S). apply Tab, I.
Qed.

Lemma CI_touch : forall m E ex st u th i t0 t, CI m E ex st -> uvs st u = Some (UOpen th i t0) ->
  (t0 = true -> m <> MC -> t = true) -> CI m E ex (touch st u th i t) /\ ext st (touch st u th i t) /\
  (forall x, upg m (uvs st x) (uvs (touch st u th i t) x)).
Proof.
  intros m E ex st u th i t0 t C H Ht.
  assert (S : shr st (touch st u th i t)) by (apply (shr_touch st u th i t0 t H)).
  assert (U : forall x, upg m (uvs st x) (uvs (touch st u th i t) x)).
  { intros x. cbn. destruct (Nat.eqb_spec x u) as [->|]; [rewrite H; exists t; auto | apply upg_refl]. }
  split; [|split; [|exact U]].
  - apply (CI_uvs m E ex st); auto using incl_refl.
  - apply ext_same; [exact S | reflexivity | reflexivity].
Qed.

Lemma mark_uvs : forall st st', mrel st st' -> forall m u, upg m (uvs st u) (uvs st' u).
Proof. intros st st' M m u. apply upg_eq. apply (mrel_fields _ _ M). Qed.

Lemma upg_trans : forall m x y z, upg m x y -> upg m y z -> upg m x z.
Proof.
  intros m [[th i t|v]|] y z H1 H2; cbn in *.
  - destruct H1 as [t1 [-> A]]. cbn in H2. destruct H2 as [t2 [-> B]]. exists t2. auto.
  - subst y. exact H2.
  - subst y. exact H2.
Qed.

(** ** Closures *)

Lemma trav_upv_ok : forall m E st o ob u, pre m E st o ob ->
  let st' := trav_upv st u in
  pre m E st' o ob /\ ext st st' /\ (forall x, upg m (uvs st x) (uvs st' x)) /\ openok m st' u.
Proof.
  intros m E st o ob u P. pose proof (c_typ _ _ _ _ (p_ci _ _ _ _ _ P)) as T. unfold trav_upv, openok.
  destruct (uvs st u) as [[th i t|v]|] eqn:Eu.
  - pose proof (p_phase _ _ _ _ _ P) as Ph. unfold phase in Ph. rewrite Ph. destruct m; cbn [is_atomic].
    + fold (touch st u th i true).
      destruct (CI_touch MA E (Some o) st u th i t true (p_ci _ _ _ _ _ P) Eu (fun _ _ => eq_refl)) as [C [X U]].
      split; [|split; [exact X | split; [exact U|]]].
      * constructor; [exact C | apply (p_heap _ _ _ _ _ P) | apply (p_black _ _ _ _ _ P) | apply (phase_shr _ _ _ (p_phase _ _ _ _ _ P)), X].
      * cbn. rewrite Nat.eqb_refl. reflexivity.
    + destruct (mark_val_ok st (uv_val st u) T) as [M Q].
      split; [apply (pre_mrel _ _ _ _ _ _ P M)|]. split; [apply (ext_mrel _ _ T M)|]. split; [apply mark_uvs, M|].
      replace (uvs (mark_val st (uv_val st u))) with (uvs st) by (symmetry; apply (mrel_fields _ _ M)). rewrite Eu.
      right. left. destruct (uv_val_shr _ _ u (shr_mrel _ _ M)) as [-> | ->]; [|reflexivity].
      apply vobj_nw. intros x Hx. apply Q. destruct (uv_val st u); inversion Hx; reflexivity.
    + destruct (mark_val_ok st (uv_val st u) T) as [M Q].
      split; [apply (pre_mrel _ _ _ _ _ _ P M)|]. split; [apply (ext_mrel _ _ T M)|]. split; [apply mark_uvs, M|].
      replace (uvs (mark_val st (uv_val st u))) with (uvs st) by (symmetry; apply (mrel_fields _ _ M)). rewrite Eu.
      left. destruct (uv_val_shr _ _ u (shr_mrel _ _ M)) as [-> | ->]; [|reflexivity].
      apply vobj_nw. intros x Hx. apply Q. destruct (uv_val st u); inversion Hx; reflexivity.
  - destruct (mark_val_ok st v T) as [M Q].
    split; [apply (pre_mrel _ _ _ _ _ _ P M)|]. split; [apply (ext_mrel _ _ T M)|]. split; [apply mark_uvs, M|].
    replace (uvs (mark_val st v)) with (uvs st) by (symmetry; apply (mrel_fields _ _ M)). rewrite Eu.
    apply vobj_nw. intros x Hx. apply Q. destruct v; inversion Hx; reflexivity.
  - cbn zeta. rewrite Eu. split; [exact P|]. split; [apply ext_refl|]. split; [intros x; apply upg_refl | exact I].
Qed.

Lemma trav_upvs_ok : forall l m E st o ob, pre m E st o ob ->
  let st' := fold_left trav_upv l st in
  pre m E st' o ob /\ ext st st' /\ (forall x, upg m (uvs st x) (uvs st' x)) /\ (forall u, In u l -> openok m st' u).
Proof.
  induction l as [|u l IH]; intros m E st o ob P; cbn [fold_left].
  - split; [exact P|]. split; [apply ext_refl|]. split; [intros x; apply upg_refl | intros u []].
  - destruct (trav_upv_ok m E st o ob u P) as [P1 [X1 [U1 O1]]].
    destruct (IH m E _ o ob P1) as [P2 [X2 [U2 O2]]]. cbn zeta in *.
    split; [exact P2|]. split; [apply (ext_trans _ _ _ X1 X2)|]. split; [intros x; apply (upg_trans _ _ _ _ (U1 x) (U2 x))|].
    intros u' [<- | I]; [|apply O2, I]. apply (openok_mono m _ _ u O1 (proj1 X2) (U2 u)).
Qed.

Lemma traverseLclosure_ok : forall m E st o ob, pre m E st o ob -> o_kind ob = KLcl -> post m E st (traverseLclosure st o ob).
Proof.
  intros m E st o ob P K. pose proof (c_typ _ _ _ _ (p_ci _ _ _ _ _ P)) as T. unfold traverseLclosure.
  destruct (mark_vals_ok (o_vals ob) st T) as [M1 V1]. pose proof (pre_mrel _ _ _ _ _ _ P M1) as P1.
  destruct (trav_upvs_ok (o_upv ob) m E _ o ob P1) as [P2 [X2 [U2 O2]]]. cbn zeta in *.
  set (st2 := fold_left trav_upv (o_upv ob) (mark_vals st (o_vals ob))) in *.
  apply (post_trans m E st _ _ (ext_mrel _ _ T M1)). apply (post_trans m E _ st2 _ X2).
  pose proof (t_kwf _ T o ob (p_heap _ _ _ _ _ P)) as Kw. unfold kwf in Kw. rewrite K in Kw. destruct Kw as [K1 [K2 [K3 K4]]].
  apply (post_full m E st2 o ob P2); [|exact K4]. split; [congruence|]. split; [|exact O2].
  intros b [R | [R | [[v R] | [[k R] | R]]]]; [congruence | | rewrite K2 in R; destruct R | rewrite K2 in R; destruct R | congruence].
  apply (shr_nw _ _ _ (proj1 X2)), V1, R.
Qed.

Lemma traverseCclosure_ok : forall m E st o ob, pre m E st o ob -> o_kind ob = KCcl -> post m E st (traverseCclosure st o ob).
Proof.
  intros m E st o ob P K. pose proof (c_typ _ _ _ _ (p_ci _ _ _ _ _ P)) as T. unfold traverseCclosure.
  destruct (mark_vals_ok (o_vals ob) st T) as [M1 V1]. pose proof (pre_mrel _ _ _ _ _ _ P M1) as P1.
  apply (post_trans m E st _ _ (ext_mrel _ _ T M1)).
  pose proof (t_kwf _ T o ob (p_heap _ _ _ _ _ P)) as Kw. unfold kwf in Kw. rewrite K in Kw. destruct Kw as [K1 [K2 [K3 [K4 K5]]]].
  apply (post_full m E _ o ob P1); [|exact K5]. split; [congruence|]. split; [|rewrite K3; intros u []].
  intros b [R | [R | [[v R] | [[k R] | R]]]]; [congruence | | rewrite K2 in R; destruct R | rewrite K2 in R; destruct R | congruence].
  apply V1, R.
Qed.

Lemma osub_cache : forall a, osub a (with_cache a None).
Proof. intros []. constructor; auto; apply Forall2_refl; [apply vsub_refl | apply esub_refl]. Qed.

Lemma traverseproto_ok : forall m E st o ob, pre m E st o ob -> o_kind ob = KProto -> post m E st (traverseproto st o ob).
Proof.
  intros m E st o ob P K. unfold traverseproto.
  set (st1 := match o_cache ob with Some c => if iswhite st c then modify st o (fun b => with_cache b None) else st | None => st end).
  assert (Q : exists ob1, pre m E st1 o ob1 /\ ext st st1 /\ o_vals ob1 = o_vals ob /\ o_kind ob1 = KProto /\
     (forall c, o_cache ob1 = Some c -> iswhite st1 c = false)).
  { assert (Same : st1 = st -> (forall c, o_cache ob = Some c -> iswhite st c = false) ->
       exists ob1, pre m E st1 o ob1 /\ ext st st1 /\ o_vals ob1 = o_vals ob /\ o_kind ob1 = KProto /\
         (forall c, o_cache ob1 = Some c -> iswhite st1 c = false)).
    { intros -> Hc. exists ob. split; [exact P|]. split; [apply ext_refl | auto]. }
    unfold st1 in *. destruct (o_cache ob) as [c|] eqn:Ec; [|apply Same; [reflexivity | congruence]].
    destruct (iswhite st c) eqn:Wc; [|apply Same; [reflexivity | congruence]].
    exists (with_cache ob None).
    assert (S : shr st (modify st o (fun b => with_cache b None))) by (apply shr_modify; intros a _; apply osub_cache).
    split; [|split; [|split; [reflexivity | split; [exact K | discriminate]]]].
    - destruct P as [C H B Ph]. constructor.
      + apply CI_content; [exact C|]. intros a _. split; [apply osub_cache | reflexivity].
      + apply (heap_modify_eq st o (fun b => with_cache b None) ob H).
      + unfold isblack. rewrite (heap_modify_eq st o (fun b => with_cache b None) ob H). unfold isblack in B. rewrite H in B. exact B.
      + apply (phase_shr _ _ _ Ph S).
    - apply ext_same; [exact S | intros x; apply iswhite_modify; reflexivity | apply (modify_fields st o)]. }
  destruct Q as [ob1 [P1 [X1 [Hv [Hk Hc]]]]]. fold st1. rewrite <- Hv.
  pose proof (c_typ _ _ _ _ (p_ci _ _ _ _ _ P1)) as T1.
  destruct (mark_vals_ok (o_vals ob1) st1 T1) as [M1 V1]. pose proof (pre_mrel _ _ _ _ _ _ P1 M1) as P2.
  apply (post_trans m E st _ _ X1). apply (post_trans m E st1 _ _ (ext_mrel _ _ T1 M1)).
  pose proof (t_kwf _ T1 o ob1 (p_heap _ _ _ _ _ P1)) as Kw. unfold kwf in Kw. rewrite Hk in Kw. destruct Kw as [K1 [K2 [K3 K4]]].
  apply (post_full m E _ o ob1 P2); [|exact K4]. split; [congruence|]. split; [|rewrite K3; intros u []].
  intros b [R | [R | [[v R] | [[k R] | R]]]]; [congruence | | rewrite K2 in R; destruct R | rewrite K2 in R; destruct R |].
  - apply V1, R.
  - apply (mrel_nw _ _ _ M1), Hc, R.
Qed.

(** ** Threads *)

Lemma CI_twups : forall m E ex st l, CI m E ex st -> incl (twups st) l -> CI m E ex (set_twups st l) /\ ext st (set_twups st l).
Proof.
  intros m E ex st l C I.
  assert (S : shr st (set_twups st l)).
  { constructor; cbn; auto.
    - intros o a H. exists a. split; [exact H | apply osub_refl].
    - intros u. apply usub_refl.
    - repeat split. }
  split; [|apply ext_same; [exact S | reflexivity | reflexivity]].
  apply (CI_uvs m E ex st _ C S); auto. intros u. apply upg_refl.
Qed.

Lemma thread_vals_sub : forall l n, Forall2 vsub l (firstn n l ++ nils (length l - n)).
Proof.
  induction l as [|a l IH]; intros n; destruct n; cbn.
  - constructor.
  - constructor.
  - constructor; [right; reflexivity|]. specialize (IH 0). cbn in IH. rewrite Nat.sub_0_r in IH. exact IH.
  - constructor; [apply vsub_refl | apply IH].
Qed.

Lemma fold_open_ok : forall l st, typ st -> mrel st (fold_left (fun s u => mark_val s (uv_val s u)) l st).
Proof.
  intros l st T. apply (fold_mrel nat (fun s u => mark_val s (uv_val s u)) (fun _ _ => False) l st T).
  intros s a Ts. split; [apply (mark_val_ok s _ Ts) | intros o []].
Qed.

Lemma in_nils : forall n x, In x (nils n) -> x = VNil.
Proof. intros n x H. apply repeat_spec in H. exact H. Qed.

Lemma traversethread_ok : forall m E st o ob, pre m E st o ob -> o_kind ob = KThread -> post m E st (traversethread st o ob).
Proof.
  intros m E st o ob P K. unfold traversethread.
  pose proof (p_phase _ _ _ _ _ P) as Ph. unfold phase in Ph. rewrite Ph.
  pose proof (c_typ _ _ _ _ (p_ci _ _ _ _ _ P)) as T.
  assert (Marks : forall s, typ s -> mrel s (fold_left (fun s u => mark_val s (uv_val s u)) (o_open ob) (mark_vals s (firstn (o_top ob) (o_vals ob)))) /\
     forall b, In (VObj b) (firstn (o_top ob) (o_vals ob)) ->
       iswhite (fold_left (fun s u => mark_val s (uv_val s u)) (o_open ob) (mark_vals s (firstn (o_top ob) (o_vals ob)))) b = false).
  { intros s Ts. destruct (mark_vals_ok (firstn (o_top ob) (o_vals ob)) s Ts) as [M1 V1].
    pose proof (fold_open_ok (o_open ob) _ (typ_mrel _ _ Ts M1)) as M2. split; [apply (mrel_trans _ _ _ M1 M2)|].
    intros b I. apply (mrel_nw _ _ _ M2), V1, I. }
  destruct (is_propagate (match m with MA => GCSpropagate | _ => GCSatomic end)) eqn:Qm.
  - assert (m = MA) by (destruct m; [reflexivity | discriminate | discriminate]). subst m.
    destruct P as [C H B _].
    destruct (CI_link_grayagain MA E st o ob C H B ltac:(rewrite K; exact I)) as [C' [S W]].
    destruct (link_lists st o) as [_ [[L1 L2] _]].
    assert (C1 : CI MA E None (link_grayagain st o)).
    { apply (CI_undo MA E o _ C').
      - intros ob' _ _. right. right. left. unfold pend. rewrite L1. left; reflexivity.
      - intros ob' _ _ Q. discriminate. }
    destruct (Marks (link_grayagain st o) (c_typ _ _ _ _ C1)) as [M _].
    set (st2 := fold_left _ (o_open ob) _) in *.
    assert (G : gcs st2 = GCSpropagate) by (rewrite (shr_gcs _ _ (shr_mrel _ _ M)), (shr_gcs _ _ S); exact Ph).
    rewrite G. cbn [is_atomic]. split; [apply (CI_mrel _ _ _ _ _ C1 M)|].
    apply (ext_trans _ (link_grayagain st o)); [apply (ext_same _ _ S W L2) | apply (ext_mrel _ _ (c_typ _ _ _ _ C1) M)].
  - assert (Nm : m <> MA) by (intros ->; discriminate).
    destruct (Marks st T) as [M V]. pose proof (pre_mrel _ _ _ _ _ _ P M) as P2.
    set (st2 := fold_left _ (o_open ob) _) in *.
    assert (G : gcs st2 = GCSatomic) by (rewrite (shr_gcs _ _ (shr_mrel _ _ M)), Ph; destruct m; [congruence | reflexivity | reflexivity]).
    rewrite G. cbn [is_atomic].
    set (f := fun b => with_vals b (firstn (o_top b) (o_vals b) ++ nils (length (o_vals b) - o_top b))).
    assert (Of : forall a, osub a (f a)) by (intros a; apply osub_vals, thread_vals_sub).
    assert (S3 : shr st2 (modify st2 o f)) by (apply shr_modify; auto).
    assert (W3 : forall x, iswhite (modify st2 o f) x = iswhite st2 x) by (intros x; apply iswhite_modify; reflexivity).
    pose proof (modify_fields st2 o f) as Fl. destruct Fl as [F1 [F2 [F3 [F4 [F5 [F6 [F7 [F8 F9]]]]]]]].
    assert (P3 : pre m E (modify st2 o f) o (f ob)).
    { destruct P2 as [C2 H2 B2 Ph2]. constructor.
      - apply CI_content; [exact C2|]. intros a _. split; [apply Of | reflexivity].
      - apply heap_modify_eq, H2.
      - unfold isblack. rewrite (heap_modify_eq st2 o f ob H2). unfold isblack in B2. rewrite H2 in B2. exact B2.
      - apply (phase_shr _ _ _ Ph2 S3). }
    set (st3 := modify st2 o f) in *.
    apply (post_trans m E st st2 _ (ext_mrel _ _ T M)).
    apply (post_trans m E st2 st3); [apply (ext_same _ _ S3 W3 F2)|].
    pose proof (t_kwf _ T o ob (p_heap _ _ _ _ _ P)) as Kw. unfold kwf in Kw. rewrite K in Kw. destruct Kw as [K1 [K2 [K3 K4]]].
    assert (Full : full m st3 (f ob)).
    { split; [intros _; exact Nm|]. split; [|cbn; rewrite K3; intros u []].
      intros b [R | [R | [[v R] | [[k R] | R]]]]; cbn in R; [congruence | | rewrite K2 in R; destruct R | rewrite K2 in R; destruct R | congruence].
      rewrite W3. apply in_app_or in R. destruct R as [R | R]; [apply V, R | apply in_nils in R; discriminate]. }
    assert (Done : forall st4, CI m E (Some o) st4 -> heap st4 o = Some (f ob) -> full m st4 (f ob) ->
        (In o (twups st4) \/ o_open ob = []) -> CI m E None st4).
    { intros st4 C4 H4 F4' T4. apply (CI_undo m E o st4 C4).
      - intros ob' H' _. rewrite H4 in H'. inversion H'; subst ob'. right. right. right. left. exact F4'.
      - intros ob' H' Op _. rewrite H4 in H'. inversion H'; subst ob'. destruct T4 as [T4 | T4]; [left; exact T4|].
        exfalso. apply Op. exact T4. }
    destruct (existsb (Nat.eqb o) (twups st3)) eqn:Et.
    + split; [|apply ext_refl]. apply (Done st3 (p_ci _ _ _ _ _ P3) (p_heap _ _ _ _ _ P3) Full). left. apply existsb_eqb_In, Et.
    + destruct (o_open ob) as [|u us] eqn:Eo.
      * split; [|apply ext_refl]. apply (Done st3 (p_ci _ _ _ _ _ P3) (p_heap _ _ _ _ _ P3) Full). right; reflexivity.
      * destruct (CI_twups m E (Some o) st3 (o :: twups st3) (p_ci _ _ _ _ _ P3) (incl_tl o (incl_refl _))) as [C4 X4].
        split; [|exact X4]. apply (Done _ C4 (p_heap _ _ _ _ _ P3)).
        -- apply (full_mono m st3 _ (f ob) Full (proj1 X4)). intros x. apply upg_refl.
        -- left. left. reflexivity.
Qed.

(** ** propagatemark *)

Lemma cnt_pop : forall st o g, gray st = o :: g -> iswhite st o = false ->
  cnt (set2black (set_gray st g) o) + 1 = cnt st.
Proof.
  intros st o g G W. unfold cnt.
  assert (Gr : gray (set2black (set_gray st g) o) = g) by (unfold set2black; rewrite gray_setcol; reflexivity).
  assert (Cw : cwhite (set2black (set_gray st g) o) = cwhite st).
  { unfold cwhite. replace (nextid (set2black (set_gray st g) o)) with (nextid st) by (unfold set2black, setcol; rewrite modify_rest; reflexivity).
    f_equal. apply filter_ext. intros x. rewrite iswhite_set2black. destruct (Nat.eqb_spec x o) as [->|]; [symmetry; exact W | reflexivity]. }
  rewrite Gr, Cw, G. cbn [length]. lia.
Qed.

(** Taking the object [o] out of a list of pending objects and painting it black. *)
Lemma pop_gl : forall E st o st1 E1, gl E st -> heap st1 = heap st ->
  (exists l1 l2, glists E st = l1 ++ o :: l2 /\ glists E1 st1 = l1 ++ l2) ->
  incl (weak st1 ++ allweak st1 ++ ephemeron st1) (weak st ++ allweak st ++ ephemeron st) ->
  gl E1 (set2black st1 o) /\ ~ In o (glists E1 st1).
Proof.
  intros E st o st1 E1 [N Col Tab] H [l1 [l2 [Q1 Q2]]] I.
  assert (No : ~ In o (glists E1 st1)).
  { rewrite Q2. intros J. rewrite Q1 in N. apply NoDup_remove_2 in N. contradiction. }
  split; [|exact No].
  assert (Ls : glists E1 (set2black st1 o) = glists E1 st1).
  { unfold glists, set2black, setcol. destruct (modify_fields st1 o (fun ob => with_col ob Black)) as [F1 [F2 [F3 [F4 [F5 [F6 _]]]]]].
    rewrite F2, F3, F4, F5, F6. reflexivity. }
  constructor.
  - rewrite Ls, Q2. rewrite Q1 in N. apply NoDup_remove_1 in N. exact N.
  - rewrite Ls. intros x Ix. rewrite heap_set2black. destruct (Nat.eqb_spec x o) as [->|]; [contradiction|]. rewrite H. apply Col.
    rewrite Q1. rewrite Q2 in Ix. apply in_app_or in Ix. apply in_or_app. destruct Ix; [left | right; right]; assumption.
  - intros x Ix. assert (Ix' : In x (weak st ++ allweak st ++ ephemeron st)).
    { apply I. unfold set2black, setcol in Ix. destruct (modify_fields st1 o (fun ob => with_col ob Black)) as [F1 [F2 [F3 [F4 [F5 [F6 _]]]]]].
      rewrite F4, F5, F6 in Ix. exact Ix. }
    specialize (Tab x Ix'). unfold kind_of in *. rewrite heap_set2black. rewrite H. destruct (Nat.eqb_spec x o) as [->|]; [|exact Tab].
    destruct (heap st o); [exact Tab | discriminate].
Qed.

(** The popped object becomes the exception. *)
Lemma pop_pre : forall m E st o st1 E1, CI m E None st -> phase m st -> shr st st1 -> heap st1 = heap st -> uvs st1 = uvs st ->
  twups st1 = twups st ->
  (exists l1 l2, glists E st = l1 ++ o :: l2 /\ glists E1 st1 = l1 ++ l2) ->
  (forall x, x <> o -> In x (gray st) -> In x (gray st1)) ->
  incl (grayagain st) (grayagain st1) ->
  (forall x, x <> o -> In x E -> In x E1) ->
  weak st1 = weak st -> allweak st1 = allweak st -> ephemeron st1 = ephemeron st ->
  In o (glists E st) ->
  exists ob, pre m E1 (set2black st1 o) o ob /\ shr st (set2black st1 o) /\ linkable (o_kind ob).
Proof.
  intros m E st o st1 E1 [T C TWi G] Ph S1 Hh Fu Ft Q G1 GA E2 Wk Aw Ep Io.
  destruct (g_col _ _ G o Io) as [ob0 [H0 [C0 L0]]].
  assert (Wo : iswhite st o = false) by (unfold iswhite; rewrite H0, C0; reflexivity).
  destruct (pop_gl E st o st1 E1 G Hh Q) as [Gl No].
  { rewrite Wk, Aw, Ep. apply incl_refl. }
  assert (S2 : shr st1 (set2black st1 o)) by (apply shr_paint; reflexivity).
  pose proof (shr_trans _ _ _ S1 S2) as S.
  assert (Wx : forall x, iswhite (set2black st1 o) x = iswhite st x).
  { intros x. rewrite iswhite_set2black. destruct (Nat.eqb_spec x o) as [->|]; [symmetry; exact Wo|].
    unfold iswhite. rewrite Hh. reflexivity. }
  destruct (modify_fields st1 o (fun ob => with_col ob Black)) as [F1 [F2 [F3 [F4 [F5 [F6 [F7 _]]]]]]].
  fold (setcol st1 o Black) in *. fold (set2black st1 o) in *.
  exists (with_col ob0 Black). split; [|split; [exact S | exact L0]]. constructor.
  - constructor.
    + apply (typ_shr _ _ T S).
    + intros x xb Nx Hx Wxb. rewrite Wx in Wxb.
      assert (n : x <> o) by congruence.
      rewrite heap_set2black in Hx. apply Nat.eqb_neq in n as n'. rewrite n' in Hx. rewrite Hh in Hx.
      destruct (C x xb ltac:(discriminate) Hx Wxb) as [A | [A | [A | A]]].
      * left. pose proof (sh_fld _ _ S) as Fl. decompose [and] Fl. congruence.
      * right; left. rewrite F2. apply (G1 x n A).
      * right; right; left. unfold pend in *. destruct m; [rewrite F3; apply GA, A | apply (E2 x n A) | apply (E2 x n A)].
      * right; right; right. apply (done_mono m st _ x xb xb A (osub_refl xb) S).
        -- apply upg_eq. rewrite F1. exact Fu.
        -- rewrite F4, Wk. apply incl_refl.
        -- rewrite F5, Aw. apply incl_refl.
        -- rewrite F6, Ep. apply incl_refl.
    + intros x xb Hx Ox. destruct (shr_inv _ _ _ _ S Hx) as [a [Ha Sa]]. rewrite (os_open _ _ Sa) in Ox.
      destruct (TWi x a Ha Ox) as [A | [Mc A]]; [left; rewrite F7, Ft; exact A|]. right. split; [exact Mc|].
      destruct (Nat.eq_dec x o) as [->|n]; [left; reflexivity|]. right. rewrite Wx, F2.
      destruct A as [A | [A | [A | A]]]; [discriminate | left; exact A | right; left; apply (G1 x n A) | right; right; apply (E2 x n A)].
    + exact Gl.
  - rewrite heap_set2black, Nat.eqb_refl, Hh, H0. reflexivity.
  - unfold isblack. rewrite heap_set2black, Nat.eqb_refl, Hh, H0. reflexivity.
  - apply (phase_shr _ _ _ Ph S).
Qed.

Lemma propagatemark_ok : forall m E st, CI m E None st -> phase m st -> gray st <> [] ->
  CI m E None (propagatemark st) /\ shr st (propagatemark st) /\ cnt (propagatemark st) < cnt st.
Proof.
  intros m E st C Ph Ng. unfold propagatemark. destruct (gray st) as [|o g] eqn:Eg; [congruence|]. clear Ng.
  pose proof (c_gl _ _ _ _ C) as G.
  assert (Io : In o (glists E st)) by (apply in_glists; left; rewrite Eg; left; reflexivity).
  destruct (pop_pre m E st o (set_gray st g) E C Ph) as [ob [P [S L]]]; try reflexivity; try (intros x _ J; exact J).
  - apply shr_lists.
  - exists [], (g ++ grayagain st ++ weak st ++ allweak st ++ ephemeron st ++ E). split; [unfold glists; rewrite Eg; reflexivity | reflexivity].
  - intros x n J. rewrite Eg in J. destruct J as [J | J]; [congruence | exact J].
  - apply incl_refl.
  - exact Io.
  - destruct (g_col _ _ G o Io) as [ob0 [H0 [C0 L0]]].
    assert (Wo : iswhite st o = false) by (unfold iswhite; rewrite H0, C0; reflexivity).
    pose proof (cnt_pop st o g Eg Wo) as Cn. rewrite (p_heap _ _ _ _ _ P).
    assert (Post : forall s, post m E (set2black (set_gray st g) o) s -> CI m E None s /\ shr st s /\ cnt s < cnt st).
    { intros s [Cs [Xs Ns]]. split; [exact Cs|]. split; [apply (shr_trans _ _ _ S Xs) | lia]. }
    destruct (o_kind ob) eqn:K; try destruct L; apply Post.
    + apply (traversetable_ok m E _ o ob P K).
    + apply (traverseLclosure_ok m E _ o ob P K).
    + apply (traverseCclosure_ok m E _ o ob P K).
    + apply (traverseproto_ok m E _ o ob P K).
    + apply (traversethread_ok m E _ o ob P K).
Qed.

Lemma propagate_n_ok : forall n m E st, CI m E None st -> phase m st -> cnt st <= n ->
  CI m E None (propagate_n n st) /\ shr st (propagate_n n st) /\ gray (propagate_n n st) = [].
Proof.
  induction n as [|n IH]; intros m E st C Ph L; cbn [propagate_n].
  - split; [exact C|]. split; [apply shr_refl|]. unfold cnt in L. destruct (gray st); [reflexivity | cbn in L; lia].
  - destruct (gray st) as [|o g] eqn:Eg.
    + split; [exact C|]. split; [apply shr_refl | exact Eg].
    + destruct (propagatemark_ok m E st C Ph ltac:(rewrite Eg; discriminate)) as [C1 [S1 L1]].
      destruct (IH m E _ C1 (phase_shr _ _ _ Ph S1) ltac:(lia)) as [C2 [S2 G2]].
      split; [exact C2|]. split; [apply (shr_trans _ _ _ S1 S2) | exact G2].
Qed.

(** The fuel is enough: gray objects and white objects are distinct. *)
Lemma cnt_bound : forall E st, typ st -> gl E st -> cnt st <= nextid st.
Proof.
  intros E st T G. unfold cnt, cwhite.
  pose proof (filter_disjoint (iswhite st) (fun _ => true) (seq 0 (nextid st)) (gray st) (seq_NoDup _ _)) as K.
  assert (Ft : filter (fun _ : nat => true) (seq 0 (nextid st)) = seq 0 (nextid st)).
  { generalize (seq 0 (nextid st)). induction l; [reflexivity|]. cbn. f_equal. exact IHl. }
  rewrite Ft, seq_length in K. apply K.
  - pose proof (g_nodup _ _ G) as N. unfold glists in N. clear - N. induction (gray st); [constructor|].
    cbn in N. inversion N; subst. constructor; [intros J; apply H1; apply in_or_app; left; exact J | apply IHl, H2].
  - auto.
  - intros x I. destruct (g_col _ _ G x) as [ob [H [C _]]]; [apply in_glists; left; exact I|].
    split; [apply in_seq; pose proof (t_fresh _ T _ _ H); lia|]. split; [reflexivity|]. unfold iswhite. rewrite H, C. reflexivity.
Qed.

Lemma propagateall_ok : forall m E st, CI m E None st -> phase m st ->
  CI m E None (propagateall st) /\ shr st (propagateall st) /\ gray (propagateall st) = [].
Proof.
  intros m E st C Ph. unfold propagateall. apply (propagate_n_ok (nextid st) m E st C Ph).
  apply (cnt_bound E st (c_typ _ _ _ _ C) (c_gl _ _ _ _ C)).
Qed.
