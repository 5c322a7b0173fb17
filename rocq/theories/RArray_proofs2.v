(* Consequences of the refinement: aliasing of slices, iteration, and where the
   specification promises something. *)
Require Import ZArith List Bool Lia.
From Verif Require Import Base Base_facts RArray_model RArray_spec RArray_proofs.
Import ListNotations.
Open Scope Z_scope.

Section Proofs2.
Variable V : Type.
Variable zero : V.
Notation astate := (astate V).
Notation aop := (aop V).

Definition window (A : astate) (h p : nat) (s n : Z) : Prop :=
  exists d e, nth_error (hnds V A) h = Some d /\ nth_error (hnds V A) p = Some e /\
    hroot d = hroot e /\ hoff d = hoff e + s - 1 /\ hn d = n /\ hkind d = Slice /\
    hkind e <> Dynamic /\ 1 <= s /\ 1 <= n /\ s + n - 1 <= hn e.

Lemma window_step : forall A o A' x h p s n, window A h p s n -> sstep V zero A o = Ok (A', x) ->
  window A' h p s n.
Proof.
  intros A o A' x h p s n (d & e & Ed & Ee & W) E.
  assert (AP : forall d', window (mkA V (roots V A) (hnds V A ++ [d'])) h p s n).
  { intros d'. exists d, e. cbn [hnds]. rewrite !nth_error_app1 by (eapply nth_error_lt; eauto). auto. }
  assert (AP2 : forall r d', window (mkA V r (hnds V A ++ [d'])) h p s n).
  { intros r d'. exists d, e. cbn [hnds]. rewrite !nth_error_app1 by (eapply nth_error_lt; eauto). auto. }
  assert (SM : forall r, window (mkA V r (hnds V A)) h p s n).
  { intros r. exists d, e. cbn [hnds]. auto. }
  assert (SA : window A h p s n) by (exists d, e; auto).
  destruct o; cbn [sstep] in E.
  - inversion E; subst. apply AP2.
  - destruct ((0 <=? n0) && (n0 <? two31)); [inversion E; subst; apply AP2|].
    destruct (n0 =? -1); inversion E; subst. assumption.
  - destruct (_ && _); [|discriminate]. destruct (nth_error (hnds V A) h0) as [d0|]; [|discriminate].
    destruct (_ && _).
    + destruct (hkind d0); inversion E; subst; auto.
    + destruct (_ <? _); inversion E; subst; auto.
  - destruct (nth_error (hnds V A) h0) as [d0|]; [|discriminate].
    destruct (negb _); [discriminate|]. destruct (_ && _); [|inversion E; subst; auto].
    destruct (elem V A d0 i); try discriminate. inversion E; subst; auto.
  - destruct (nth_error (hnds V A) h0) as [d0|] eqn:E0; [|discriminate].
    destruct (negb _); [discriminate|]. destruct (_ && _); [inversion E; subst; apply SM|].
    destruct (Z.eqb_spec i (hn d0 + 1)); [|inversion E; subst; auto].
    destruct (room d0) eqn:RM; inversion E; subst; auto.
    assert (h0 <> h).
    { intros ->. rewrite E0 in Ed. inversion Ed; subst. unfold room in RM.
      replace (hkind d) with Slice in RM by (symmetry; tauto). discriminate. }
    destruct (Nat.eq_dec h0 p).
    + subst h0. rewrite E0 in Ee. inversion Ee; subst e.
      exists d, (mkHnd (hroot d0) (hoff d0) (hn d0 + 1) (hkind d0)). cbn [hnds].
      rewrite upd_nth_error_other by assumption.
      rewrite upd_nth_error_same by (eapply nth_error_lt; eauto). cbn [hroot hoff hn hkind].
      repeat split; try tauto; lia.
    + exists d, e. cbn [hnds]. rewrite !upd_nth_error_other by assumption. auto.
  - destruct (nth_error (hnds V A) h0); inversion E; subst; auto.
  - destruct (nth_error (hnds V A) h0) as [d0|]; [|discriminate].
    destruct (negb _); [discriminate|]. destruct (_ <? _); [inversion E; subst; auto|].
    destruct (elem V A d0 _); try discriminate. inversion E; subst; auto.
Qed.

Lemma window_make : forall A p s n A' h, sstep V zero A (OSlice V p s n) = Ok (A', RHandle V h) -> window A' h p s n.
Proof.
  intros A p s n A' h E. cbn [sstep] in E.
  destruct (_ && _); [|discriminate]. destruct (nth_error (hnds V A) p) as [d|] eqn:Ed; [|discriminate].
  destruct (_ && _) eqn:T.
  - apply andb_prop in T. destruct T as [T T3]. apply andb_prop in T. destruct T as [T1 T2].
    apply Z.leb_le in T1, T2, T3.
    destruct (hkind d) eqn:K; inversion E; subst;
     (eexists _, d; cbn [hnds]; rewrite nth_snoc, nth_error_app1 by (eapply nth_error_lt; eauto);
      split; [reflexivity|]; split; [assumption|]; cbn [hroot hoff hn hkind]; repeat split; auto; try lia; congruence).
  - destruct (_ <? _); inversion E.
Qed.

Lemma srun_cons : forall A o l xs, srun V zero A (o :: l) = Ok xs ->
  exists A' x ys, sstep V zero A o = Ok (A', x) /\ srun V zero A' l = Ok ys /\ xs = x :: ys.
Proof.
  intros A o l xs E. cbn [srun] in E. destruct (sstep V zero A o) as [[A' x]| | |]; try discriminate.
  cbn [bind] in E. destruct (srun V zero A' l) as [ys| | |] eqn:Er; try discriminate. cbn [bind] in E.
  inversion E; subst. eauto 6.
Qed.

Lemma srun_app : forall l1 l2 A xs, srun V zero A (l1 ++ l2) = Ok xs ->
  exists ys zs A', srun V zero A l1 = Ok ys /\ sstate V zero A l1 = Ok A' /\ srun V zero A' l2 = Ok zs /\ xs = ys ++ zs.
Proof.
  induction l1 as [|o l1 IH]; intros l2 A xs E; cbn [app] in E.
  - exists [], xs, A. cbn [srun sstate]. auto.
  - apply srun_cons in E. destruct E as (A1 & x & ys & Es & Er & ->).
    destruct (IH _ _ _ Er) as (y1 & z1 & A2 & E1 & E2 & E3 & ->).
    exists (x :: y1), z1, A2. cbn [srun sstate]. rewrite Es. cbn [bind]. rewrite E1. cbn [bind]. auto.
Qed.

Lemma window_state : forall l A A' h p s n, window A h p s n -> sstate V zero A l = Ok A' -> window A' h p s n.
Proof.
  induction l as [|o l IH]; intros A A' h p s n W E; cbn [sstate] in E.
  - inversion E; subst. assumption.
  - destruct (sstep V zero A o) as [[A1 x]| | |] eqn:Es; try discriminate. cbn [bind] in E.
    eapply IH; [|exact E]. eapply window_step; eauto.
Qed.

(* the element read through a slice and through its parent *)
Theorem alias_get : forall pre p s n mid h i xs,
  srun V zero (empty_state V) (pre ++ OSlice V p s n :: mid ++ [OGet V h i; OGet V p (s + i - 1)]) = Ok xs ->
  nth_error xs (length pre) = Some (RHandle V h) -> 1 <= i <= n ->
  arun V zero (empty_heap V) (pre ++ OSlice V p s n :: mid ++ [OGet V h i; OGet V p (s + i - 1)]) = Ok xs /\
  exists ys v, xs = ys ++ [RVal V v; RVal V v].
Proof.
  intros pre p s n mid h i xs E Eh Hi. split; [apply run_refines; assumption|].
  apply srun_app in E. destruct E as (y1 & z1 & A1 & R1 & S1 & E & ->).
  assert (L1 : length y1 = length pre).
  { clear - R1. revert y1 R1. generalize (empty_state V). induction pre as [|o l IH]; intros A y E.
    - inversion E; reflexivity.
    - apply srun_cons in E. destruct E as (A' & x & ys & _ & E & ->). simpl. f_equal. eauto. }
  apply srun_cons in E. destruct E as (A2 & x & z2 & S2 & E & ->).
  rewrite nth_error_app2, L1, Nat.sub_diag in Eh by lia. inversion Eh; subst x.
  apply window_make in S2. apply srun_app in E. destruct E as (y3 & z3 & A3 & R3 & S3 & E & ->).
  pose proof (window_state _ _ _ _ _ _ _ S2 S3) as (d & e & Ed & Ee & Wr & Wo & Wn & Wk & We & W1 & W2 & W3).
  apply srun_cons in E. destruct E as (A4 & x4 & z4 & S4 & E & ->).
  apply srun_cons in E. destruct E as (A5 & x5 & z5 & S5 & E & ->). inversion E; subst z5.
  cbn [sstep] in S4. rewrite Ed in S4. destruct (negb _); [discriminate|].
  destruct (Z.leb_spec 0 i); [|lia]. destruct (Z.leb_spec i (hn d)); [|lia]. cbn [andb] in S4.
  destruct (elem V A3 d i) as [v| | |] eqn:Ev; try discriminate. inversion S4; subst A4 x4.
  cbn [sstep] in S5. rewrite Ee in S5. destruct (negb _); [discriminate|].
  destruct (Z.leb_spec 0 (s + i - 1)); [|lia]. destruct (Z.leb_spec (s + i - 1) (hn e)); [|lia]. cbn [andb] in S5.
  assert (Q : elem V A3 e (s + i - 1) = Ok v).
  { rewrite <- Ev. unfold elem. rewrite <- Wr, Wo.
    replace (hoff e + (s + i - 1)) with (hoff e + s - 1 + i) by lia. reflexivity. }
  rewrite Q in S5. inversion S5; subst. exists (y1 ++ RHandle V h :: y3), v.
  rewrite <- app_assoc. reflexivity.
Qed.

(* ---- totality of the specification on sensible operations ---- *)
Lemma spec_defined : forall H A rb o, Rel V H A rb -> in_scope V A o -> exists r, sstep V zero A o = Ok r.
Proof.
  intros H A rb o R S.
  assert (EL : forall h d i, nth_error (hnds V A) h = Some d -> 0 <= i <= hn d -> exists v, elem V A d i = Ok v).
  { intros h d i Ed Hi. assert (Hh := nth_error_lt _ _ _ _ Ed). rewrite <- (R_len _ _ _ _ R) in Hh.
    destruct (nth_error_ex _ _ _ Hh) as [t Et]. destruct (get_ok _ H A rb h t d i R Et Ed Hi) as (v & Ev & _). eauto. }
  destruct o; cbn [sstep in_scope] in *.
  - eauto.
  - destruct (Z.leb_spec 0 n); destruct (Z.ltb_spec n two31); cbn [andb]; eauto; try lia.
    destruct (Z.eqb_spec n (-1)); eauto; lia.
  - destruct S as (S1 & S2 & d & Ed & Hd). rewrite Ed.
    destruct (Z.leb_spec (- two31) start); [|lia]. destruct (Z.ltb_spec start two31); [|lia].
    destruct (Z.leb_spec (- two31) len); [|lia]. destruct (Z.ltb_spec len two31); [|lia]. cbn [andb].
    destruct (_ && _); [destruct (hkind d); eauto|]. destruct (Z.ltb_spec (hn d) two31); [eauto|lia].
  - destruct S as (d & Ed & Hd). rewrite Ed.
    destruct (Z.ltb_spec (hn d + 1 - two32) i); [|lia]. destruct (Z.ltb_spec i two32); [|lia]. cbn [andb negb].
    destruct (Z.leb_spec 0 i); destruct (Z.leb_spec i (hn d)); cbn [andb]; eauto.
    destruct (EL h d i Ed) as [v Ev]; [lia|]. rewrite Ev. cbn [bind]. eauto.
  - destruct S as (d & Ed & Hd). rewrite Ed.
    destruct (Z.ltb_spec (hn d + 1 - two32) i); [|lia]. destruct (Z.ltb_spec i two32); [|lia]. cbn [andb negb].
    destruct (_ && _); [eauto|]. destruct (_ =? _); [|eauto]. destruct (room d); eauto.
  - destruct S as (d & Ed). rewrite Ed. eauto.
  - destruct S as ((d & Ed) & Hk). rewrite Ed.
    set (i := (match k with Some k0 => k0 | None => 0 end) + 1).
    assert (1 <= i <= maxint) by (unfold i; destruct k; unfold_consts; lia).
    destruct (Z.leb_spec 1 i); [|lia]. destruct (Z.leb_spec i maxint); [|lia]. cbn [andb negb].
    destruct (Z.ltb_spec (hn d) i); [eauto|]. destruct (EL h d i Ed) as [v Ev]; [lia|]. rewrite Ev. cbn [bind]. eauto.
Qed.

Lemma sstate_rel : forall l A H rb A', Rel V H A rb -> sstate V zero A l = Ok A' -> exists H' rb', Rel V H' A' rb'.
Proof.
  induction l as [|o l IH]; intros A H rb A' R E; cbn [sstate] in E.
  - inversion E; subst. eauto.
  - destruct (sstep V zero A o) as [[A1 x]| | |] eqn:Es; try discriminate. cbn [bind] in E.
    destruct (step_refines _ _ _ _ _ _ _ _ R Es) as (H1 & rb1 & _ & R1). eauto.
Qed.

Theorem promised : forall l A o, sstate V zero (empty_state V) l = Ok A -> in_scope V A o -> exists r, sstep V zero A o = Ok r.
Proof.
  intros l A o E S. destruct (sstate_rel _ _ _ _ _ (Rel_empty V) E) as (H & rb & R).
  eapply spec_defined; eauto.
Qed.

(* ---- iteration ---- *)
Lemma srun_visits : forall m h d A H rb k, Rel V H A rb -> nth_error (hnds V A) h = Some d ->
  0 <= k -> k + Z.of_nat m = hn d ->
  exists vs, length vs = m /\
   (forall j, (j < m)%nat -> elem V A d (k + 1 + Z.of_nat j) = Ok (nth j vs zero)) /\
   srun V zero A (visits V h k m) =
     Ok (map (fun '(j, v) => RPair V (Some (k + 1 + Z.of_nat j, v))) (combine (seq 0 m) vs) ++ [RPair V None]).
Proof.
  induction m; intros h d A H rb k R Ed Hk Hm.
  - exists []. split; [reflexivity|]. split; [lia|]. cbn [visits srun sstep]. rewrite Ed.
    replace (match (if k =? 0 then None else Some k) with Some k0 => k0 | None => 0 end) with k
      by (destruct (Z.eqb_spec k 0); lia).
    assert (Hh := nth_error_lt _ _ _ _ Ed). rewrite <- (R_len _ _ _ _ R) in Hh.
    destruct (nth_error_ex _ _ _ Hh) as [t Et]. pose proof (R_h _ _ _ _ R _ _ _ Et Ed) as K.
    destruct (alen_bound _ _ _ _ _ _ K) as [B L].
    destruct (Z.leb_spec 1 (k + 1)); [|lia]. destruct (Z.leb_spec (k + 1) maxint); [|unfold_consts; lia].
    cbn [andb negb]. destruct (Z.ltb_spec (hn d) (k + 1)); [|lia]. reflexivity.
  - cbn [visits]. destruct (IHm h d A H rb (k + 1) R Ed) as (vs & Lv & Ev & Er); try lia.
    assert (Hh := nth_error_lt _ _ _ _ Ed). rewrite <- (R_len _ _ _ _ R) in Hh.
    destruct (nth_error_ex _ _ _ Hh) as [t Et]. pose proof (R_h _ _ _ _ R _ _ _ Et Ed) as K.
    destruct (alen_bound _ _ _ _ _ _ K) as [B L].
    destruct (get_ok _ H A rb h t d (k + 1) R Et Ed ltac:(lia)) as (v & E1 & _).
    exists (v :: vs). split; [simpl; lia|]. split.
    + intros [|j] Hj.
      * cbn [nth]. rewrite Z.add_0_r. exact E1.
      * cbn [nth]. rewrite <- Ev by lia. f_equal. lia.
    + cbn [srun sstep]. rewrite Ed.
      replace (match (if k =? 0 then None else Some k) with Some k0 => k0 | None => 0 end) with k
        by (destruct (Z.eqb_spec k 0); lia).
      destruct (Z.leb_spec 1 (k + 1)); [|lia]. destruct (Z.leb_spec (k + 1) maxint); [|unfold_consts; lia].
      cbn [andb negb]. destruct (Z.ltb_spec (hn d) (k + 1)); [lia|]. rewrite E1. cbn [bind]. rewrite Er. cbn [bind].
      cbn [seq combine map app]. rewrite Z.add_0_r. do 3 f_equal.
      rewrite <- seq_shift. clear. generalize (seq 0 m) as l. revert vs.
      intros vs l. revert vs. induction l as [|a l IH]; intros [|w vs]; cbn [combine map]; auto.
      f_equal; [do 3 f_equal; lia|]. apply IH.
Qed.

Theorem visits_all : forall l A h d, sstate V zero (empty_state V) l = Ok A -> nth_error (hnds V A) h = Some d ->
  exists vs xs, length vs = Z.to_nat (hn d) /\
   (forall j, (j < length vs)%nat -> elem V A d (Z.of_nat j + 1) = Ok (nth j vs zero)) /\
   arun V zero (empty_heap V) (l ++ visits V h 0 (Z.to_nat (hn d))) =
     Ok (xs ++ map (fun '(j, v) => RPair V (Some (1 + Z.of_nat j, v))) (combine (seq 0 (length vs)) vs) ++ [RPair V None]).
Proof.
  intros l A h d E Ed. destruct (sstate_rel _ _ _ _ _ (Rel_empty V) E) as (H & rb & R).
  assert (Hh := nth_error_lt _ _ _ _ Ed). rewrite <- (R_len _ _ _ _ R) in Hh.
  destruct (nth_error_ex _ _ _ Hh) as [t Et]. pose proof (R_h _ _ _ _ R _ _ _ Et Ed) as K.
  pose proof (k_pos _ _ _ _ _ _ K).
  destruct (srun_visits (Z.to_nat (hn d)) h d A H rb 0 R Ed) as (vs & Lv & Ev & Er); try lia.
  assert (Q : exists xs, forall zs l2, srun V zero A l2 = Ok zs -> srun V zero (empty_state V) (l ++ l2) = Ok (xs ++ zs)).
  { clear - E. revert E. generalize (empty_state V). induction l as [|o l IH]; intros A0 E; cbn [sstate] in E.
    - inversion E; subst. exists []. auto.
    - destruct (sstep V zero A0 o) as [[A1 x]| | |] eqn:Es; try discriminate. cbn [bind] in E.
      destruct (IH _ E) as [xs Hx]. exists (x :: xs). intros zs l2 E2. cbn [app srun]. rewrite Es. cbn [bind].
      rewrite (Hx _ _ E2). reflexivity. }
  destruct Q as [xs Hx]. exists vs, xs. split; [assumption|]. split.
  - intros j Hj. rewrite <- Ev by lia. f_equal. lia.
  - apply run_refines. rewrite Lv. apply Hx. exact Er.
Qed.
End Proofs2.
