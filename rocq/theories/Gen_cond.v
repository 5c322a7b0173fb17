(* Conditional jumps. *)
Require Import ZArith List Bool Arith Lia.
From Verif Require Import Base Float_model Op_model Op_spec Op_proofs Gen_model Gen_spec Gen_facts Gen_run Gen_inv Gen_ops Gen_put.
Import ListNotations.
Local Open Scope nat_scope.

Lemma truish_ty t v : none_of t T_FALSISH = true -> hast t v -> truthy v = true.
Proof.
  intros N H. destruct (truthy v) eqn:T; [reflexivity|]. exfalso. apply (none_spec _ _ _ N H). destruct v as [|[]|[]| | | | | | |]; try discriminate T; reflexivity.
Qed.
Lemma falsish_ty t v : none_of t T_TRUISH = true -> hast t v -> truthy v = false.
Proof.
  intros N H. destruct (truthy v) eqn:T; [|reflexivity]. exfalso. apply (none_spec _ _ _ N H). destruct v as [|[]|[]| | | | | | |]; try discriminate T; reflexivity.
Qed.
Definition lits (k : kind) (tv : bool) : Prop :=
  match k with VK _ | VKFlt _ | VKInt _ | VTrue => tv = true | VNil | VFalse => tv = false | _ => False end.

Section cond.
Variable W : Type.
Variable E : env W.
Notation step := (step W E).
Notation config := (config W).
Notation state := (state W).
Notation Res := (Res W E).
Notation steps := (steps W E).
Notation INV := (INV W E).
Notation HC := (HC W E).
Notation TY := (TY W).
Notation result := (result W).

(* the value is tv *)
Definition is (tv : bool) (P : prog) (s : state) (o : outcome (val * W)) : Prop := exists v, o = Ok (v, world s) /\ truthy v = tv.
Lemma exitJ_is c l tv cf s o P : exitJ W c l tv cf s o -> is tv P s o.
Proof.
  intros (j & H & A & V). unfold atj in A. destruct (tset c j) as [[b cc]|].
  - destruct A as [_ A], V as [-> V]. exists (reg s b). auto.
  - exists (Bool tv). split; [exact V|]. destruct tv; reflexivity.
Qed.
(* the jumps of one kind come to here *)
Lemma hc_here_t fs0 b0 fs t f r : HC fs0 b0 fs t f r (is true) -> HC fs0 b0 (patchtohere fs t) [] f r (is true).
Proof.
  intros H P X cf0 s0 O A. eapply res_imp; [|apply (H P X cf0 s0 O A)]. intros c (s & Ke & [[Ar Va]|[J|J]]); exists s; (split; [exact Ke|]).
  - left. split; [|exact Va]. eapply arrive_mono; [| |exact Ar]; [reflexivity|]. intros j Hj. cbn. rewrite cnt_app. lia.
  - left. split; [|eapply exitJ_is; exact J]. right. destruct J as (j & Hj & Aj & _). exists j. split; [cbn; rewrite cnt_app; lia|exact Aj].
  - right. right. exact J.
Qed.
Lemma hc_here_f fs0 b0 fs t f r : HC fs0 b0 fs t f r (is false) -> HC fs0 b0 (patchtohere fs f) t [] r (is false).
Proof.
  intros H P X cf0 s0 O A. eapply res_imp; [|apply (H P X cf0 s0 O A)]. intros c (s & Ke & [[Ar Va]|[J|J]]); exists s; (split; [exact Ke|]).
  - left. split; [|exact Va]. eapply arrive_mono; [| |exact Ar]; [reflexivity|]. intros j Hj. cbn. rewrite cnt_app. lia.
  - right. left. exact J.
  - left. split; [|eapply exitJ_is; exact J]. right. destruct J as (j & Hj & Aj & _). exists j. split; [cbn; rewrite cnt_app; lia|exact Aj].
Qed.
(* jumps are added to the lists *)
Definition addt (c : bool) (l j : list nat) : list nat := if c then l ++ j else l.
Definition addf (c : bool) (l j : list nat) : list nat := if c then l else l ++ j.
Lemma cnt_add c t f j x : cnt (addt c t j ++ addf c f j) x = cnt (j ++ t ++ f) x.
Proof. unfold addt, addf. destruct c; rewrite !cnt_app; lia. Qed.
Lemma exitJ_add c t f j tv code cf s o : exitJ W code j tv cf s o -> tv = c -> exitJ W code (addt c t j) true cf s o \/ exitJ W code (addf c f j) false cf s o.
Proof. intros J ->. unfold addt, addf. destruct c; [left|right]; apply exitJ_app2; exact J. Qed.
Lemma exitJ_addt c t j code cf s o : exitJ W code t true cf s o -> exitJ W code (addt c t j) true cf s o.
Proof. intros J. unfold addt. destruct c; [apply exitJ_app|]; exact J. Qed.
Lemma exitJ_addf c t j code cf s o : exitJ W code t false cf s o -> exitJ W code (addf c t j) false cf s o.
Proof. intros J. unfold addf. destruct c; [|apply exitJ_app]; exact J. Qed.

Lemma jumponcond_inv fs0 b0 fs e r c fs' e' j : Pre fs0 -> nactvar fs0 <= b0 -> INV fs0 b0 fs e r -> discharged (ek e) -> (forall p, ek e <> VJmp p) ->
  jumponcond fs e c = (fs', e', j) ->
  Grow fs0 fs' nohole (addt c (et e) j ++ addf c (ef e) j) /\ freereg fs' = b0 /\ et e' = et e /\ ef e' = ef e /\ ety e' = ety e /\ j <> [] /\
  HC fs0 b0 fs' (addt c (et e) j) (addf c (ef e) j) r (is (negb c)).
Proof.
  intros P0 L I0 D Nj.
  assert (Other: (let '(fs, e) := discharge2anyreg fs e in let fs := freeexp fs e in let '(fs, j) := condjump fs (TestSet None (reg_of e) c) in (fs, e, j)) = (fs', e', j) ->
    Grow fs0 fs' nohole (addt c (et e) j ++ addf c (ef e) j) /\ freereg fs' = b0 /\ et e' = et e /\ ef e' = ef e /\ ety e' = ety e /\ j <> [] /\ HC fs0 b0 fs' (addt c (et e) j) (addf c (ef e) j) r (is (negb c))).
  { destruct (discharge2anyreg fs e) as [fsx ex] eqn:Dx. destruct (d2any_inv W E fs0 b0 fs e r fsx ex P0 L I0 D Nj Dx) as (I1 & x & -> & _). cbv zeta. cbn [reg_of ek with_k].
    destruct (freeexp_base (nactvar fs0) b0 fsx (with_k e (VNonreloc x)) L (g_nact _ _ _ _ (i_grow _ _ _ _ _ _ _ I1)) (i_kind _ _ _ _ _ _ _ I1) Logic.I) as [Fb Sf].
    set (fsy := freeexp fsx (with_k e (VNonreloc x))) in *.
    pose proof (grow_same _ _ _ _ _ Sf (inv_grow _ _ _ _ _ _ _ I1 Logic.I)) as G. pose proof (hc_same _ _ _ _ _ _ _ _ _ _ Sf (inv_hc _ _ _ _ _ _ _ I1 Logic.I)) as Hc. cbn [et ef with_k] in G, Hc.
    pose proof (grow_pre _ _ _ _ G) as P1.
    destruct (grow_condjump fs0 fsy nohole (et e ++ ef e) (TestSet None x c) P0 G) as [G2 J2]; [intros a b cc H; injection H as <- _ _; reflexivity|intros p []|].
    destruct (cond_nth fsy (TestSet None x c) P1) as [N1 N2].
    assert (Fc: freereg (fst (condjump fsy (TestSet None x c))) = freereg fsy) by (rewrite condjump_eq; reflexivity).
    assert (Pc: pc (fst (condjump fsy (TestSet None x c))) = S (S (pc fsy))) by (rewrite condjump_eq; unfold pc; cbn [fst code with_code]; rewrite app_length; fold (pc (dischargejpc fsy)); rewrite pc_dj by exact P1; cbn; unfold pc; lia).
    assert (Kc: ks (fst (condjump fsy (TestSet None x c))) = ks fsy) by (rewrite condjump_eq; reflexivity).
    pose proof (refines_condjump nohole nohole fsy (TestSet None x c) P1 (fun p (H : nohole p) => match H with end)) as Rc.
    pose proof (fun P cf s => condjump_run W E nohole fsy (TestSet None x c) P cf s P1) as Run.
    assert (Tc: forall i, 0 < cnt (et e ++ ef e) i -> tset (code (fst (condjump fsy (TestSet None x c)))) i = tset (code fsy) i) by (intros i Hi; eapply tset_condjump; eauto).
    destruct (condjump fsy (TestSet None x c)) as [fsz jz]. cbn [fst snd] in *. intros H; injection H as <- <- <-. subst jz.
    split; [eapply grow_cnt; [|exact G2]; intros y; rewrite cnt_add; cbn [app]; reflexivity|]. split; [lia|]. repeat split; auto; [discriminate|].
    intros P X cf0 s0 O A. assert (X': ext nohole fsy P) by (eapply ext_refines; [exact X|exact Rc|exists []; rewrite app_nil_r; exact Kc]).
    eapply res_bind; [apply (Hc P X' cf0 s0 O A)|auto|]. intros cf (s & Ke & [[Ar Va]|[J|J]]).
    - eapply res_steps; [eapply (Run P cf s X); [intros p []|exact Ar]|]. cbn [valF ek with_k] in Va. unfold valF in Va. cbn [ek with_k] in Va.
      destruct (Bool.eqb (truthy (reg s x)) c) eqn:T.
      + apply res_ret. exists s. split; [exact Ke|right]. apply eqb_prop in T. eapply exitJ_add; [|reflexivity]. exists (S (pc fsy)). rewrite cnt_self. split; [lia|].
        unfold atj. cbn [tset pred]. rewrite N1. auto.
      + assert (St: step P (pc fsy, s) = Ok (S (S (pc fsy)), s)).
        { destruct (text_at _ _ _ _ _ X N1) as (i' & Ti & Ci); [intros []|]. unfold Gen_model.step. rewrite Ti. destruct Ci as [->|[->|[a ->]]]; rewrite T; reflexivity. }
        eapply res_steps; [apply steps_one; exact St|]. apply res_ret. exists s. split; [exact Ke|left]. split; [apply arrive_pc; auto|].
        exists (reg s x). split; [exact Va|]. destruct (truthy (reg s x)), c; cbn in *; congruence.
    - apply res_ret. exists s. split; [exact Ke|]. right. left. apply exitJ_addt. eapply exitJ_tset; [|exact J]. intros i Hi. apply Tc. rewrite cnt_app. lia.
    - apply res_ret. exists s. split; [exact Ke|]. right. right. apply exitJ_addf. eapply exitJ_tset; [|exact J]. intros i Hi. apply Tc. rewrite cnt_app. lia. }
  unfold jumponcond. cbv zeta. destruct (ek e) eqn:Ke; auto. destruct (nth_error (code fs) pc) as [[a op| | | | | | |]|] eqn:Np; auto. destruct op; auto. clear Other.
  pose proof I0 as [G0 Ki C T]. unfold kindok in Ki. rewrite Ke in Ki. destruct Ki as (Sp & Jp & Fb & Lk & op & No & _). rewrite Np in No. injection No as -> <-.
  set (p := pc) in *. set (fsp := with_code fs (removelast (code fs))).
  assert (Nts: forall a b cc q, S q = p -> nth_error (code fs) q <> Some (TestSet a b cc)).
  { intros a b' cc q Hq Hn. apply (Lk q) with (a := a) (b := b') (cc := cc).
    - rewrite firstn_length. unfold Gen_model.pc in Sp. lia.
    - rewrite <- Hn. rewrite <- (firstn_skipn p (code fs)) at 2. rewrite nth_app1; [reflexivity|]. rewrite firstn_length. unfold Gen_model.pc in Sp. lia. }
  assert (Hh: hole e p) by (unfold hole; rewrite Ke; reflexivity).
  assert (Gp: Grow fs0 fsp nohole (et e ++ ef e)).
  { eapply grow_cnt; [|eapply (grow_pop fs0 fs (hole e) (pend e) p _ fsp G0 Np Sp Hh); auto; try reflexivity; discriminate]. intros y. unfold pend, vj. rewrite Ke, app_nil_r. reflexivity. }
  pose proof (grow_pre _ _ _ _ Gp) as P1.
  assert (Pp: Gen_model.pc fsp = p) by (unfold Gen_model.pc, fsp; cbn [code with_code]; rewrite removelast_len; unfold Gen_model.pc in Sp; lia).
  destruct (grow_condjump fs0 fsp nohole (et e ++ ef e) (Test b (negb c)) P0 Gp) as [G2 J2]; [discriminate|intros q []|].
  destruct (cond_nth fsp (Test b (negb c)) P1) as [N1 N2].
  assert (Fc: freereg (fst (condjump fsp (Test b (negb c)))) = freereg fsp) by (rewrite condjump_eq; reflexivity).
  assert (Pc: Gen_model.pc (fst (condjump fsp (Test b (negb c)))) = S (S p)) by (rewrite condjump_eq; unfold Gen_model.pc; cbn [fst code with_code]; rewrite app_length; fold (Gen_model.pc (dischargejpc fsp)); rewrite pc_dj by exact P1; cbn [length]; lia).
  assert (Kc: ks (fst (condjump fsp (Test b (negb c)))) = ks fsp) by (rewrite condjump_eq; reflexivity).
  assert (Rc: refines (hole e) (code fs) nohole (code (fst (condjump fsp (Test b (negb c)))))).
  { eapply refines_trans; [apply (refines_pop (hole e) (code fs) p Hh Sp)|]. apply (refines_condjump nohole nohole fsp (Test b (negb c)) P1). intros q []. }
  assert (Tc: forall i, 0 < cnt (et e ++ ef e) i -> tset (code (fst (condjump fsp (Test b (negb c))))) i = tset (code fs) i).
  { intros i Hi. rewrite (tset_condjump fs0 fsp nohole (et e ++ ef e)) by assumption. assert (Jk: jok (code fsp) i) by (apply (g_jok _ _ _ _ Gp); rewrite cnt_app; lia).
    apply jok_len in Jk. fold (Gen_model.pc fsp) in Jk. rewrite Pp in Jk. destruct i as [|i]; [reflexivity|]. cbn [tset]. unfold fsp. cbn [code with_code]. rewrite removelast_nth; [reflexivity|]. unfold Gen_model.pc in Sp. lia. }
  destruct (condjump fsp (Test b (negb c))) as [fsz jz]. cbn [fst snd] in *. intros H; injection H as <- <- <-. subst jz. rewrite Pp in *.
  split; [eapply grow_cnt; [|exact G2]; intros y; rewrite cnt_add; reflexivity|]. split; [rewrite Fc; exact Fb|]. repeat split; auto; [discriminate|].
  intros P X cf0 s0 O A. assert (X': ext (hole e) fs P) by (eapply ext_refines; [exact X|exact Rc|exists []; rewrite app_nil_r; exact Kc]).
  eapply res_bind; [apply (C P X' cf0 s0 O A)|auto|]. intros cf (s & Kp & [Hx|[J|J]]).
  - unfold exitF in Hx. rewrite Ke in Hx. destruct Hx as (-> & op & No & Va). rewrite Np in No. injection No as <-.
    destruct Va as [Va|[[] _]]. cbn [vres] in Va.
    assert (St: step P (p, s) = Ok (if Bool.eqb (truthy (reg s b)) (negb c) then S p else S (S p), s)).
    { unfold Gen_model.step. rewrite (text_fixed _ _ _ _ _ X N1 Logic.I); [reflexivity|intros []]. }
    eapply res_steps; [apply steps_one; exact St|]. apply res_ret. exists s. split; [exact Kp|]. rewrite <- Va. destruct (Bool.eqb (truthy (reg s b)) (negb c)) eqn:Bq.
    + right. eapply exitJ_add; [|reflexivity]. exists (S p). rewrite cnt_self. split; [lia|]. unfold atj. cbn [tset]. rewrite N1. split; [reflexivity|]. apply eqb_prop in Bq. rewrite Bq, negb_involutive. reflexivity.
    + left. split; [apply arrive_pc; auto|]. exists (Bool (negb (truthy (reg s b)))). split; [reflexivity|]. destruct (truthy (reg s b)), c; cbn in *; congruence.
  - apply res_ret. exists s. split; [exact Kp|]. right. left. apply exitJ_addt. eapply exitJ_tset; [|exact J]. intros i Hi. apply Tc. rewrite cnt_app. lia.
  - apply res_ret. exists s. split; [exact Kp|]. right. right. apply exitJ_addf. eapply exitJ_tset; [|exact J]. intros i Hi. apply Tc. rewrite cnt_app. lia.
Qed.

Definition temporary (n : nat) (e : expdesc) : Prop :=
  match ek e with VReloc _ | VUpval _ | VIndexed _ _ _ _ => True | VNonreloc r => n <= r | _ => False end.
Lemma dv_cases fs e fsx ex : dischargevars fs e = (fsx, ex) ->
  (fsx = fs /\ ex = e) \/ (fsx = fs /\ exists r, ek e = VLocal r /\ ek ex = VNonreloc r) \/ ((exists p, ek ex = VReloc p) /\ forall n, temporary n e).
Proof.
  unfold dischargevars, temporary. destruct (ek e) eqn:Ke; try (intros H; injection H as <- <-; left; auto; fail).
  - intros H; injection H as <- <-. right. left. split; [reflexivity|]. exists r. auto.
  - intros H; injection H as <- <-. right. right. split; [eexists; reflexivity|auto].
  - cbv zeta. destruct (codeget (ety e) kt (isshortstr fs idx)) as [o ty]. intros H; injection H as <- <-. right. right. split; [eexists; reflexivity|auto].
Qed.
Lemma valF_ok P fs e s o : arrival (ek e) -> discharged (ek e) -> valF W E P fs e s o -> exists v, o = Ok (v, world s).
Proof. unfold valF. destruct (ek e); cbn; try contradiction; intros _ _ H; eauto. destruct H as (v & _ & H). eauto. Qed.
(* the test is left out *)
Lemma omitted fs0 b0 fs e r tv : INV fs0 b0 fs e r -> arrival (ek e) -> discharged (ek e) ->
  (lits (ek e) tv /\ (forall k, ek e = VK k -> exists v, nth_error (ks fs) k = Some v /\ truthy v = true)) \/ (forall v, hast (vty e) v -> truthy v = tv) ->
  HC fs0 b0 fs (et e) (ef e) r (is tv).
Proof.
  intros I0 A D H. eapply hc_imp; [exact (inv_hc _ _ _ _ _ _ _ I0 A)|]. intros P s s0 X O Ke V. destruct H as [[Li Hk]|Ht].
  - unfold valF in V. unfold lits in Li. destruct (ek e) eqn:Kd; try contradiction; subst tv.
    + exists Nil. auto.
    + exists (Bool true). auto.
    + exists (Bool false). auto.
    + destruct V as (v & Nv & V). destruct (Hk k eq_refl) as (v' & Nv' & Tv). exists v. split; [exact V|]. congruence.
    + exists (I i). auto.
    + exists (F f). auto.
  - destruct (valF_ok _ _ _ _ _ A D V) as [v Hv]. exists v. split; [exact Hv|]. apply Ht. apply (i_ty _ _ _ _ _ _ _ I0 s0 O v (world s) Hv).
Qed.
(* a comparison *)
Lemma compared fs0 b0 fs e r q op c x y d fs' : Pre fs0 -> INV fs0 b0 fs e r -> ek e = VJmp (S q) -> nth_error (code fs) q = Some (Cmp op c x y) ->
  Grow fs0 fs' nohole (pend e) -> nth_error (code fs') q = Some (Cmp op d x y) -> refines (hole e) (code fs) nohole (code fs') ->
  (forall j, tset (code fs') j = tset (code fs) j) -> pc fs' = pc fs -> ks fs' = ks fs ->
  let tv := Bool.eqb c d in HC fs0 b0 fs' (addt tv (et e) [S q]) (addf tv (ef e) [S q]) r (is (negb tv)).
Proof.
  intros P0 I0 Ke Nq G' Nq' Rf Ts Pc Ek tv. pose proof I0 as [G0 Ki C T]. unfold kindok in Ki. rewrite Ke in Ki. destruct Ki as (Fb & Jp0 & Sp0 & _).
  intros P X cf0 s0 O A. assert (X': ext (hole e) fs P) by (eapply ext_refines; [exact X|exact Rf|exists []; rewrite app_nil_r; exact Ek]).
  eapply res_bind; [apply (C P X' cf0 s0 O A)|auto|]. intros cf (s & Kp & [Hx|[J|J]]).
  - unfold exitF in Hx. rewrite Ke in Hx. cbn [pred] in Hx. destruct Hx as (-> & op' & c' & x' & y' & N' & Vc). rewrite Nq in N'. injection N' as <- <- <- <-.
    unfold cmpv in Vc. assert (Tx: nth_error (text P) q = Some (Cmp op d x y)) by (eapply text_fixed; [exact X|exact Nq'|exact Logic.I|intros []]).
    destruct (cres W E (consts P) s op x y) as [[b w]|er| |] eqn:Cr; cbn [bind] in Vc.
    + assert (St: step P (q, s) = Ok (if Bool.eqb b d then S q else S (S q), mkst (reg s) w)) by (unfold Gen_model.step; rewrite Tx, Cr; reflexivity).
      eapply res_steps; [apply steps_one; exact St|]. apply res_ret. exists (mkst (reg s) w). split; [exact Kp|]. rewrite Vc. destruct (Bool.eqb b d) eqn:Bd.
      * right. eapply exitJ_add; [|reflexivity]. exists (S q). rewrite cnt_self. split; [lia|]. unfold atj. rewrite Ts. cbn [tset]. rewrite Nq. split; [reflexivity|]. cbn [world]. apply eqb_prop in Bd. subst b.
        unfold tv. destruct c, d; reflexivity.
      * left. split; [apply arrive_pc; rewrite Pc; lia|]. exists (Bool (Bool.eqb b c)). split; [reflexivity|]. unfold tv. destruct b, c, d; try discriminate Bd; reflexivity.
    + apply res_fail. unfold Gen_model.step. rewrite Tx, Cr, Vc. reflexivity.
    + apply res_fail. unfold Gen_model.step. rewrite Tx, Cr, Vc. exact Logic.I.
    + apply res_fail. unfold Gen_model.step. rewrite Tx, Cr, Vc. exact Logic.I.
  - apply res_ret. exists s. split; [exact Kp|]. right. left. apply exitJ_addt. eapply exitJ_tset; [|exact J]. intros i Hi. apply Ts.
  - apply res_ret. exists s. split; [exact Kp|]. right. right. apply exitJ_addf. eapply exitJ_tset; [|exact J]. intros i Hi. apply Ts.
Qed.
Lemma negate fs0 b0 fs e r p : INV fs0 b0 fs e r -> ek e = VJmp p ->
  exists q op c x y, p = S q /\ nth_error (code fs) q = Some (Cmp op c x y) /\ negatecondition (code fs) p = upd (code fs) q (Cmp op (negb c) x y) /\
    forall h' : holes, (forall z, h' z -> hole e z) -> Grow fs0 (with_code fs (negatecondition (code fs) p)) h' (pend e).
Proof.
  intros [G0 Ki C T] Ke. unfold kindok in Ki. rewrite Ke in Ki. destruct Ki as (Fb & Jp0 & Sp0 & q & op & c & x & y & -> & Nq).
  exists q, op, c, x, y. split; [reflexivity|]. split; [exact Nq|].
  assert (Nc: negatecondition (code fs) (S q) = upd (code fs) q (Cmp op (negb c) x y)) by (unfold negatecondition, getjumpcontrol; rewrite Nq; cbn [testT]; rewrite Nq; reflexivity).
  split; [exact Nc|]. intros h' Hh. rewrite Nc. eapply (grow_point fs0 fs (hole e) h' (pend e) q _ (Cmp op (negb c) x y)); eauto; try discriminate; try reflexivity.
  unfold hole. rewrite Ke. reflexivity.
Qed.
Lemma none_hast_t t : none_of t T_FALSISH = true -> forall v, hast t v -> truthy v = true.
Proof. intros N v. apply truish_ty. exact N. Qed.
Lemma none_hast_f t : none_of t T_TRUISH = true -> forall v, hast t v -> truthy v = false.
Proof. intros N v. apply falsish_ty. exact N. Qed.
Definition gone (n b0 : nat) (fs : fstate) (e : expdesc) : Prop := kindok n b0 fs e.
Lemma kind_free n b0 fs e : n <= b0 -> kindok n b0 fs e -> discharged (ek e) -> ~ temporary n e -> freereg fs = b0.
Proof.
  unfold kindok, temporary. intros L K D N. destruct (ek e); cbn in D; try contradiction; try tauto. lia.
Qed.
Lemma goiftrue_inv fs0 b0 fs e r fs' e' : Pre fs0 -> nactvar fs0 <= b0 -> INV fs0 b0 fs e r ->
  (forall k, ek e = VK k -> exists v, nth_error (ks fs) k = Some v /\ truthy v = true) -> (temporary (nactvar fs0) e -> none_of (vty e) T_FALSISH = false) ->
  goiftrue fs e = (fs', e') ->
  Grow fs0 fs' nohole (ef e') /\ freereg fs' = b0 /\ et e' = [] /\ ety e' = vty e /\ HC fs0 b0 fs' [] (ef e') r (is true) /\
  (ef e' = [] -> ef e = [] /\ (lits (ek e) true \/ none_of (vty e) T_FALSISH = true)).
Proof.
  intros P0 L I0 Hk Ht. unfold goiftrue. destruct (dischargevars fs e) as [fsx ex] eqn:Dx.
  destruct (dischargevars_inv W E fs0 b0 fs e r fsx ex P0 I0 Dx) as (I1 & D1 & Ty & Et & Ef).
  assert (He: ety ex = vty e) by (rewrite <- Ty; unfold vty; destruct (ek ex); cbn in D1; try contradiction; reflexivity).
  assert (Ht': temporary (nactvar fs0) ex -> none_of (vty e) T_FALSISH = false).
  { destruct (dv_cases _ _ _ _ Dx) as [[_ ->]|[(_ & x & K1 & K2)|[_ Te]]]; auto. unfold temporary. rewrite K2. intros H. exfalso. pose proof (i_kind _ _ _ _ _ _ _ I0) as K. unfold kindok in K. rewrite K1 in K. lia. }
  assert (Hk': forall k, ek ex = VK k -> exists v, nth_error (ks fsx) k = Some v /\ truthy v = true).
  { destruct (dv_cases _ _ _ _ Dx) as [[-> ->]|[(_ & x & K1 & K2)|[[p K2] _]]]; auto; intros k; rewrite K2; discriminate. }
  assert (Hl: lits (ek ex) true -> lits (ek e) true).
  { destruct (dv_cases _ _ _ _ Dx) as [[_ ->]|[(_ & x & K1 & K2)|[[p K2] _]]]; auto; rewrite K2; intros []. }
  assert (Patch: forall fsy j l, l = ef e ++ j -> Grow fs0 fsy nohole (et e ++ l) -> freereg fsy = b0 -> HC fs0 b0 fsy (et e) l r (is true) ->
    Grow fs0 (patchtohere fsy (et e)) nohole l /\ freereg (patchtohere fsy (et e)) = b0 /\ HC fs0 b0 (patchtohere fsy (et e)) [] l r (is true)).
  { intros fsy j l _ Gy Fy Hy. split; [eapply grow_move; [exact Gy|reflexivity..|]; intros z; cbn [jpc patchtohere with_jpc]; rewrite app_assoc; reflexivity|]. split; [exact Fy|apply hc_here_t; exact Hy]. }
  assert (Om: forall k', arrival (ek ex) -> ~ temporary (nactvar fs0) ex -> (lits (ek ex) true \/ none_of (vty e) T_FALSISH = true) ->
     (patchtohere fsx (et ex), mk k' [] (ef ex ++ []) (ety ex)) = (fs', e') ->
     Grow fs0 fs' nohole (ef e') /\ freereg fs' = b0 /\ et e' = [] /\ ety e' = vty e /\ HC fs0 b0 fs' [] (ef e') r (is true) /\ (ef e' = [] -> ef e = [] /\ (lits (ek e) true \/ none_of (vty e) T_FALSISH = true))).
  { intros k' A Nt Lt H. injection H as <- <-. cbn [ef et ety]. rewrite app_nil_r, Et, Ef.
    destruct (Patch fsx [] (ef e)) as (Q1 & Q2 & Q3).
    - rewrite app_nil_r. reflexivity.
    - rewrite <- Et, <- Ef. apply (inv_grow _ _ _ _ _ _ _ I1 A).
    - eapply kind_free; [exact L|exact (i_kind _ _ _ _ _ _ _ I1)|exact D1|exact Nt].
    - rewrite <- Et, <- Ef. apply omitted; auto. destruct Lt as [Lt|Lt]; [left; auto|right]. rewrite Ty. apply none_hast_t. exact Lt.
    - split; [exact Q1|]. split; [exact Q2|]. split; [reflexivity|]. split; [exact He|]. split; [exact Q3|]. intros Hf. split; [exact Hf|]. destruct Lt as [Lt|Lt]; auto. }
  assert (Jc: (forall p, ek ex <> VJmp p) -> (let '(fs, e, j) := jumponcond fsx ex false in (patchtohere fs (et e), mk (ek e) [] (ef e ++ j) (ety e))) = (fs', e') ->
     Grow fs0 fs' nohole (ef e') /\ freereg fs' = b0 /\ et e' = [] /\ ety e' = vty e /\ HC fs0 b0 fs' [] (ef e') r (is true) /\ (ef e' = [] -> ef e = [] /\ (lits (ek e) true \/ none_of (vty e) T_FALSISH = true))).
  { intros Nj. destruct (jumponcond fsx ex false) as [[fsy ey] j] eqn:Jy. destruct (jumponcond_inv fs0 b0 fsx ex r false fsy ey j P0 L I1 D1 Nj Jy) as (G & Fr & E1 & E2 & E3 & Jn & Hc).
    intros H. injection H as <- <-. cbn [ef et ety]. cbn [addt addf] in G, Hc. rewrite Et, Ef in *. rewrite E1, E2, E3.
    destruct (Patch fsy j (ef e ++ j) eq_refl G Fr Hc) as (Q1 & Q2 & Q3).
    split; [exact Q1|]. split; [exact Q2|]. split; [reflexivity|]. split; [exact He|]. split; [exact Q3|]. intros Hf. apply app_eq_nil in Hf. tauto. }
  assert (Vt: none_of (ety ex) T_FALSISH = none_of (vty e) T_FALSISH) by (rewrite He; reflexivity).
  pose proof (fun p => negate fs0 b0 fsx ex r p I1) as Ng.
  destruct (ek ex) eqn:Ke; cbn in D1; try contradiction.
  1,3,7,8: (destruct (none_of (ety ex) T_FALSISH) eqn:No; [|apply Jc; discriminate]; try (apply (Om (ek ex)); [exact Logic.I|unfold temporary; rewrite Ke; tauto|right; congruence])).
  - apply (Om (ek ex)); [exact Logic.I| |right; congruence]. intros H. specialize (Ht' H). congruence.
  - assert (T: temporary (nactvar fs0) ex) by (unfold temporary; rewrite Ke; exact Logic.I). specialize (Ht' T). congruence.
  - apply (Om (ek ex)); [exact Logic.I|unfold temporary; rewrite Ke; tauto|left; exact eq_refl].
  - apply (Om (ek ex)); [exact Logic.I|unfold temporary; rewrite Ke; tauto|left; exact eq_refl].
  - apply (Om (ek ex)); [exact Logic.I|unfold temporary; rewrite Ke; tauto|left; exact eq_refl].
  - apply (Om (ek ex)); [exact Logic.I|unfold temporary; rewrite Ke; tauto|left; exact eq_refl].
  - destruct (Ng pc eq_refl) as (q & op & c & x & y & -> & Nq & Nc & G). intros H. injection H as <- <-. cbn [ef et ety]. rewrite Ke in *.
    assert (Hq: hole ex q) by (unfold hole; rewrite Ke; reflexivity).
    specialize (G nohole (fun z (H : nohole z) => match H with end)).
    assert (Hc: HC fs0 b0 (with_code fsx (negatecondition (code fsx) (S q))) (et e) (ef e ++ [S q]) r (is true)).
    { pose proof (compared fs0 b0 fsx ex r q op c x y (negb c) (with_code fsx (negatecondition (code fsx) (S q))) P0 I1 Ke Nq G) as Cc.
      assert (tv: Bool.eqb c (negb c) = false) by (destruct c; reflexivity). rewrite tv in Cc. cbn [addt addf negb] in Cc. rewrite <- Et, <- Ef. cbn [code with_code] in Cc. rewrite Nc in *.
      apply Cc; auto.
      - apply upd_same. apply nth_lt in Nq. exact Nq.
      - apply refines_point; [exact Hq|intros z []].
      - intros j. eapply tset_point; [exact Nq|discriminate..].
      - unfold Gen_model.pc. cbn [code with_code]. apply upd_len. }
    rewrite Et, Ef. destruct (Patch (with_code fsx (negatecondition (code fsx) (S q))) [S q] (ef e ++ [S q]) eq_refl) as (Q1 & Q2 & Q3); auto.
    + eapply grow_cnt; [|exact G]. intros z. unfold pend, vj. rewrite Ke, Et, Ef. reflexivity.
    + cbn. pose proof (i_kind _ _ _ _ _ _ _ I1) as K. unfold kindok in K. rewrite Ke in K. apply K.
    + split; [exact Q1|]. split; [exact Q2|]. split; [reflexivity|]. split; [exact He|]. split; [exact Q3|]. intros Hf. apply app_eq_nil in Hf. destruct Hf; discriminate.
Qed.
Lemma goiffalse_inv fs0 b0 fs e r fs' e' : Pre fs0 -> nactvar fs0 <= b0 -> INV fs0 b0 fs e r ->
  (forall k, ek e = VK k -> exists v, nth_error (ks fs) k = Some v /\ truthy v = true) -> (temporary (nactvar fs0) e -> none_of (vty e) T_TRUISH = false) ->
  goiffalse fs e = (fs', e') ->
  Grow fs0 fs' nohole (et e') /\ freereg fs' = b0 /\ ef e' = [] /\ ety e' = vty e /\ HC fs0 b0 fs' (et e') [] r (is false) /\
  (et e' = [] -> et e = [] /\ (lits (ek e) false \/ none_of (vty e) T_TRUISH = true)).
Proof.
  intros P0 L I0 Hk Ht. unfold goiffalse. destruct (dischargevars fs e) as [fsx ex] eqn:Dx.
  destruct (dischargevars_inv W E fs0 b0 fs e r fsx ex P0 I0 Dx) as (I1 & D1 & Ty & Et & Ef).
  assert (He: ety ex = vty e) by (rewrite <- Ty; unfold vty; destruct (ek ex); cbn in D1; try contradiction; reflexivity).
  assert (Ht': temporary (nactvar fs0) ex -> none_of (vty e) T_TRUISH = false).
  { destruct (dv_cases _ _ _ _ Dx) as [[_ ->]|[(_ & x & K1 & K2)|[_ Te]]]; auto. unfold temporary. rewrite K2. intros H. exfalso. pose proof (i_kind _ _ _ _ _ _ _ I0) as K. unfold kindok in K. rewrite K1 in K. lia. }
  assert (Hk': forall k, ek ex = VK k -> exists v, nth_error (ks fsx) k = Some v /\ truthy v = true).
  { destruct (dv_cases _ _ _ _ Dx) as [[-> ->]|[(_ & x & K1 & K2)|[[p K2] _]]]; auto; intros k; rewrite K2; discriminate. }
  assert (Hl: lits (ek ex) false -> lits (ek e) false).
  { destruct (dv_cases _ _ _ _ Dx) as [[_ ->]|[(_ & x & K1 & K2)|[[p K2] _]]]; auto; rewrite K2; intros []. }
  assert (Patch: forall fsy j l, l = et e ++ j -> Grow fs0 fsy nohole (l ++ ef e) -> freereg fsy = b0 -> HC fs0 b0 fsy l (ef e) r (is false) ->
    Grow fs0 (patchtohere fsy (ef e)) nohole l /\ freereg (patchtohere fsy (ef e)) = b0 /\ HC fs0 b0 (patchtohere fsy (ef e)) l [] r (is false)).
  { intros fsy j l _ Gy Fy Hy. split; [eapply grow_move; [exact Gy|reflexivity..|]; intros z; cbn [jpc patchtohere with_jpc]; rewrite !cnt_app; lia|]. split; [exact Fy|apply hc_here_f; exact Hy]. }
  assert (Om: forall k', arrival (ek ex) -> ~ temporary (nactvar fs0) ex -> (lits (ek ex) false \/ none_of (vty e) T_TRUISH = true) ->
     (patchtohere fsx (ef ex), mk k' (et ex ++ []) [] (ety ex)) = (fs', e') ->
     Grow fs0 fs' nohole (et e') /\ freereg fs' = b0 /\ ef e' = [] /\ ety e' = vty e /\ HC fs0 b0 fs' (et e') [] r (is false) /\ (et e' = [] -> et e = [] /\ (lits (ek e) false \/ none_of (vty e) T_TRUISH = true))).
  { intros k' A Nt Lt H. injection H as <- <-. cbn [ef et ety]. rewrite app_nil_r, Et, Ef.
    destruct (Patch fsx [] (et e)) as (Q1 & Q2 & Q3).
    - rewrite app_nil_r. reflexivity.
    - rewrite <- Et, <- Ef. apply (inv_grow _ _ _ _ _ _ _ I1 A).
    - eapply kind_free; [exact L|exact (i_kind _ _ _ _ _ _ _ I1)|exact D1|exact Nt].
    - rewrite <- Et, <- Ef. apply omitted; auto. destruct Lt as [Lt|Lt]; [left; auto|right]. rewrite Ty. apply none_hast_f. exact Lt.
    - split; [exact Q1|]. split; [exact Q2|]. split; [reflexivity|]. split; [exact He|]. split; [exact Q3|]. intros Hf. split; [exact Hf|]. destruct Lt as [Lt|Lt]; auto. }
  assert (Jc: (forall p, ek ex <> VJmp p) -> (let '(fs, e, j) := jumponcond fsx ex true in (patchtohere fs (ef e), mk (ek e) (et e ++ j) [] (ety e))) = (fs', e') ->
     Grow fs0 fs' nohole (et e') /\ freereg fs' = b0 /\ ef e' = [] /\ ety e' = vty e /\ HC fs0 b0 fs' (et e') [] r (is false) /\ (et e' = [] -> et e = [] /\ (lits (ek e) false \/ none_of (vty e) T_TRUISH = true))).
  { intros Nj. destruct (jumponcond fsx ex true) as [[fsy ey] j] eqn:Jy. destruct (jumponcond_inv fs0 b0 fsx ex r true fsy ey j P0 L I1 D1 Nj Jy) as (G & Fr & E1 & E2 & E3 & Jn & Hc).
    intros H. injection H as <- <-. cbn [ef et ety]. cbn [addt addf] in G, Hc. rewrite Et, Ef in *. rewrite E1, E2, E3.
    destruct (Patch fsy j (et e ++ j) eq_refl G Fr Hc) as (Q1 & Q2 & Q3).
    split; [exact Q1|]. split; [exact Q2|]. split; [reflexivity|]. split; [exact He|]. split; [exact Q3|]. intros Hf. apply app_eq_nil in Hf. tauto. }
  assert (Vt: none_of (ety ex) T_TRUISH = none_of (vty e) T_TRUISH) by (rewrite He; reflexivity).
  pose proof (fun p => negate fs0 b0 fsx ex r p I1) as Ng.
  destruct (ek ex) eqn:Ke; cbn in D1; try contradiction.
  2,4,5,6,7,8: (destruct (none_of (ety ex) T_TRUISH) eqn:No; [|apply Jc; discriminate]; try (apply (Om (ek ex)); [exact Logic.I|unfold temporary; rewrite Ke; tauto|right; congruence])).
  - apply (Om (ek ex)); [exact Logic.I|unfold temporary; rewrite Ke; tauto|left; exact eq_refl].
  - apply (Om (ek ex)); [exact Logic.I| |right; congruence]. intros H. specialize (Ht' H). congruence.
  - assert (T: temporary (nactvar fs0) ex) by (unfold temporary; rewrite Ke; exact Logic.I). specialize (Ht' T). congruence.
  - apply (Om (ek ex)); [exact Logic.I|unfold temporary; rewrite Ke; tauto|left; exact eq_refl].
  - destruct (Ng pc eq_refl) as (q & op & c & x & y & -> & Nq & Nc & _). intros H. injection H as <- <-. cbn [ef et ety]. rewrite Ke in *.
    pose proof (grow_nohole _ _ _ _ (i_grow _ _ _ _ _ _ _ I1)) as G.
    assert (Hc: HC fs0 b0 fsx (et e ++ [S q]) (ef e) r (is false)).
    { pose proof (compared fs0 b0 fsx ex r q op c x y c fsx P0 I1 Ke Nq G) as Cc.
      assert (tv: Bool.eqb c c = true) by (destruct c; reflexivity). rewrite tv in Cc. cbn [addt addf negb] in Cc. rewrite <- Et, <- Ef.
      apply Cc; auto. intros z i0 Hz _. split; [intros []|]. exists i0. split; [exact Hz|apply compat_refl]. }
    rewrite Et, Ef. destruct (Patch fsx [S q] (et e ++ [S q]) eq_refl) as (Q1 & Q2 & Q3); auto.
    + eapply grow_cnt; [|exact G]. intros z. unfold pend, vj. rewrite Ke, Et, Ef. rewrite !cnt_app. lia.
    + pose proof (i_kind _ _ _ _ _ _ _ I1) as K. unfold kindok in K. rewrite Ke in K. apply K.
    + split; [exact Q1|]. split; [exact Q2|]. split; [reflexivity|]. split; [exact He|]. split; [exact Q3|]. intros Hf. apply app_eq_nil in Hf. destruct Hf; discriminate.
Qed.
End cond.
