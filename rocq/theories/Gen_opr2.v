(* Concatenation, type assertions, indexing, 'and', 'or' and calls. *)
Require Import ZArith List Bool Arith Lia.
From Coq Require Import Floats.SpecFloat.
From Verif Require Import Base Float_model Op_model Op_spec Op_proofs Gen_model Gen_spec Gen_facts Gen_run Gen_inv Gen_ops Gen_put Gen_cond Gen_not Gen_seq Gen_opr.
Import ListNotations.
Local Open Scope nat_scope.

Lemma firstn_upd {A} (l : list A) p x : firstn p (upd l p x) = firstn p l.
Proof. revert p; induction l as [|y l IH]; intros [|p]; cbn; auto. rewrite IH. reflexivity. Qed.
Section opr2.
Variable W : Type.
Variable E : env W.
Notation step := (step W E).
Notation config := (config W).
Notation state := (state W).
Notation Res := (Res W E).
Notation steps := (steps W E).
Notation INV := (INV W E).
Notation HC := (HC W E).
Notation HCg := (HCg W E).
Notation TY := (TY W).
Notation keep := (keep W).
Notation okst := (okst W).
Notation arrive := (arrive W).
Notation result := (result W).
Notation LO := (LO W).
Notation pairr := (pairr W).
Notation exec_bin := (exec_bin W (fmod E) (fpow E) (tmbin E)).
Notation generic := (generic W (fmod E) (fpow E) (tmbin E)).
Notation then1 := (then1 W).
Notation then2 := (then2 W).

Definition cat_ok (fs : fstate) (e : expdesc) : Prop :=
  forall p b c, ek e = VReloc p -> et e = [] -> ef e = [] -> nth_error (code fs) p = Some (Val None (OConcat b c)) -> ety e = T_STR \/ ety e = T_ANY.
Lemma cat_discharged fs e fs' e' : Pre fs -> cat_ok fs e -> exp2val fs e = (fs', e') -> vty e' = ety e' -> cat_ok fs' e'.
Proof.
  intros P1 C X V. unfold exp2val in X. destruct (hasjumps e) eqn:Hj.
  - intros p b c Ke. exfalso. unfold exp2anyreg in X. destruct (dischargevars fs e) as [fa ea]. 
    assert (N: forall a b r, exp2reg a b r = (fs', e') -> False) by (intros a b' r; unfold exp2reg; destruct (discharge2reg a b' r); intros Q; injection Q as _ <-; discriminate Ke).
    assert (N2: exp2nextreg fa ea = (fs', e') -> False) by (unfold exp2nextreg; destruct (dischargevars fa ea); apply N).
    destruct (ek ea) eqn:Ka; try (apply N2; exact X). destruct (negb (hasjumps ea)); [injection X as _ <-; congruence|]. destruct (_ <=? _); [eapply N; exact X|apply N2; exact X].
  - intros p b c Ke Et Ef N. unfold dischargevars in X. assert (Same: fs' = fs -> e' = e -> ety e' = T_STR \/ ety e' = T_ANY) by (intros -> ->; eapply C; eauto).
    destruct (ek e) eqn:K; try (injection X as <- <-; apply Same; reflexivity).
    + injection X as <- <-. discriminate Ke.
    + injection X as <- <-. cbn [with_k ek] in Ke. injection Ke as <-. rewrite (emit_nth _ _ P1) in N. discriminate N.
    + destruct (codeget (ety e) kt (isshortstr fs idx)) as [o ty]. injection X as <- <-. cbn [with_k with_ty ek] in Ke. injection Ke as <-.
      set (f2 := if up then free_rk fs idx else free_reg (free_rk fs idx) t) in *.
      assert (S2: samefs fs f2). { unfold f2, free_rk. destruct up, idx; try apply same_refl; try apply same_free_reg. eapply same_trans; apply same_free_reg. }
      assert (Pc: pc fs = pc f2) by (unfold pc; destruct S2 as (-> & _); reflexivity). rewrite Pc in N.
      rewrite (emit_nth f2) in N. { destruct up; discriminate N. }
      destruct S2 as (A & B & C' & _). destruct P1 as [p1 p2 p3 p4]. split; rewrite ?A, ?B, ?C'; auto.
Qed.
Lemma cat_type t1 t2 r1 r2 fs0 : (forall a b w r w', hast T_CAT a -> hast T_CAT b -> concat E a b w = Ok (r, w') -> hast T_STR r) ->
  TY fs0 t1 r1 -> TY fs0 t2 r2 -> TY fs0 (cat_ty t1 t2) (then2 r1 r2 (concat E)).
Proof.
  intros PC T1 T2. eapply ty_then2; eauto. intros v v2 w v' w' H1 H2 Ec. unfold cat_ty. destruct (within t1 T_CAT) eqn:W1; [|apply hast_any]. destruct (within t2 T_CAT) eqn:W2; [|apply hast_any].
  cbn [andb]. apply (PC v v2 w v' w' (within_spec _ _ _ W1 H1) (within_spec _ _ _ W2 H2) Ec).
Qed.
Lemma concat_inv fs0 b0 fs1 t1 r1 fs2 e2 r2 fs' e' fm fp : Pre fs0 -> nactvar fs0 <= b0 -> (forall a b w r w', hast T_CAT a -> hast T_CAT b -> concat E a b w = Ok (r, w') -> hast T_STR r) ->
  INV fs0 b0 fs1 (mk (VNonreloc b0) [] [] t1) r1 -> freereg fs1 = S b0 -> INV fs1 (S b0) fs2 e2 r2 -> LO (nactvar fs0) r2 -> cat_ok fs2 e2 ->
  posfix fm fp fs2 BConcat (mk (VNonreloc b0) [] [] t1) e2 = Ok (fs', e') ->
  INV fs0 b0 fs' e' (then2 r1 r2 (concat E)) /\ exists p, e' = mk (VReloc p) [] [] (cat_ty t1 (vty e2)).
Proof.
  intros P0 L PC I1 F1 I2 Lo Co. cbn [posfix]. destruct (exp2val fs2 e2) as [fs3 e3] eqn:Xv.
  destruct (operand_g W E fs0 b0 fs1 _ r1 (R b0) t1 L I1 eq_refl) as (H1 & G1 & _). pose proof (grow_pre _ _ _ _ G1) as P1. pose proof (g_nact _ _ _ _ G1) as N1.
  destruct (exp2val_inv W E fs1 (S b0) fs2 e2 r2 fs3 e3 P1 ltac:(lia) I2 Xv) as (I3 & D3 & Et & Ef & Ty).
  assert (V3: vty e3 = ety e3) by (unfold vty; destruct (ek e3); cbn in D3; try contradiction; reflexivity).
  assert (Co3: cat_ok fs3 e3) by (apply (cat_discharged fs2 e2 fs3 e3 (grow_pre _ _ _ _ (i_grow _ _ _ _ _ _ _ I2)) Co Xv V3)).
  assert (TT: TY fs0 (cat_ty t1 (vty e2)) (then2 r1 r2 (concat E))).
  { apply cat_type; auto; [apply (i_ty _ _ _ _ _ _ _ I1)|]. eapply ty_grow; [exact G1|]. apply (i_ty _ _ _ _ _ _ _ I2). }
  assert (Plain: (let '(fs, e2) := exp2nextreg fs3 e3 in let fs := freeexps fs (mk (VNonreloc b0) [] [] t1) e2 in
      Ok (emit fs (Val None (OConcat b0 (reg_of e2))), mk (VReloc (pc fs)) [] [] (if within t1 T_CAT && within (ety e2) T_CAT then T_STR else T_ANY))) = Ok (fs', e') ->
      INV fs0 b0 fs' e' (then2 r1 r2 (concat E)) /\ exists p, e' = mk (VReloc p) [] [] (cat_ty t1 (vty e2))).
  { destruct (exp2nextreg fs3 e3) as [fs4 e4] eqn:Xn. destruct (exp2nextreg_inv W E fs1 (S b0) fs3 e3 r2 fs4 e4 P1 ltac:(lia) I3 Xn) as (I4 & -> & F4).
    rewrite V3, Ty. cbn [reg_of ek ety]. cbv zeta. intros Q. injection Q as <- <-. fold (cat_ty t1 (vty e2)).
    destruct (operand_g W E fs1 (S b0) fs4 _ r2 (R (S b0)) _ ltac:(lia) I4 eq_refl) as (H4 & G4 & _). rewrite V3, Ty in *.
    pose proof (grow_trans _ _ _ _ _ _ P0 G1 G4) as G5. cbn [app] in G5.
    destruct (freeexps_op fs4 (mk (VNonreloc b0) [] [] t1) (mk (VNonreloc (S b0)) [] [] (vty e2)) (R b0) (R (S b0)) t1 (vty e2) b0 eq_refl eq_refl) as [Ff Sf].
    { rewrite (g_nact _ _ _ _ G5). unfold tmpk, tmp. destruct (Nat.ltb_spec b0 (nactvar fs0)), (Nat.ltb_spec (S b0) (nactvar fs0)); lia. }
    split; [|eauto]. apply emit_reloc; auto.
    - eapply grow_same; eauto.
    - eapply hc_same; [exact Sf|].
      pose proof (seq_g W E fs0 b0 fs1 (S b0) fs4 r1 r2 (opS W (R b0) t1) (opS W (R b0) t1) (opS W (R (S b0)) (vty e2)) G1 G4 L ltac:(lia) H1 H4 Lo) as H.
      eapply hc_ext; [eapply (g_hc W E _ _ _ _ _ (fun p => concat E (fst p) (snd p))); [apply H|]|intros s O; apply pair_bind].
      + intros P s s' a _ Sa Ke. eapply op_keep; [|exact Ke|exact Sa]. intros y Hy. injection Hy as <-. lia.
      + intros P s [a b] X [[Ra Ha] [Rb Hb]]. left. cbn in Ra, Rb. injection Ra as <-. injection Rb as <-. cbn [vres fst snd]. replace (S b0 - b0) with 1 by lia. reflexivity.
    - intros b c Q. injection Q as <- <-. lia. }
  destruct (ek e3) eqn:K3; try exact Plain. rename pc0 into p || rename pc into p.
  pose proof (i_kind _ _ _ _ _ _ _ I3) as Ki. unfold kindok in Ki. rewrite K3 in Ki. destruct Ki as (Kp & Kj & Kf & Kl & op & Kn & Kc). rewrite Kn.
  destruct op; try exact Plain. destruct (Kc b c eq_refl) as [-> Hc]. cbn [freeexp ek reg_of]. cbn [ety et ef].
  assert (Tq: (if Z.eqb (ety e3) T_STR && within t1 T_CAT then T_STR else T_ANY) = cat_ty t1 (vty e2)).
  { unfold cat_ty. rewrite <- Ty. destruct (Co3 p _ _ K3 Et Ef Kn) as [-> | ->]; cbn [Z.eqb]; [change (within T_STR T_CAT) with true; rewrite andb_true_r; reflexivity|change (within T_ANY T_CAT) with false; rewrite andb_false_r; reflexivity]. }
  rewrite Tq. intros Q. injection Q as <- <-. split; [|eauto].
  assert (Fx: freereg (free_reg fs3 b0) = b0 /\ samefs fs3 (free_reg fs3 b0)).
  { split; [|apply same_free_reg]. unfold free_reg. rewrite (g_nact _ _ _ _ (i_grow _ _ _ _ _ _ _ I3)), N1. destruct (Nat.leb_spec (nactvar fs0) b0); cbn; lia. }
  destruct Fx as [Fx Sx]. set (fx := free_reg fs3 b0) in *. set (fs' := with_code fx (upd (code fx) p (Val None (OConcat b0 c)))) in *.
  pose proof (i_grow _ _ _ _ _ _ _ I3) as G3. assert (Pe: pend e3 = []) by (unfold pend, vj; rewrite Et, Ef, K3; reflexivity). rewrite Pe in G3.
  assert (Hh: forall q, hole e3 q <-> q = p) by (intros q; unfold hole; rewrite K3; tauto).
  pose proof (grow_trans _ _ _ _ _ _ P0 G1 G3) as G. cbn [app] in G.
  assert (Cx: code fs' = upd (code fs3) p (Val None (OConcat b0 c))) by (unfold fs'; cbn; destruct Sx as (-> & _); reflexivity).
  destruct Sx as (Sc & Sj & Sk & Sn & Sl & Su).
  assert (Lp: p < length (code fs3)) by (eapply nth_lt; exact Kn).
  split.
  - unfold pend, vj. cbn [ek et ef app]. eapply (grow_point fs0 fs3 (hole e3) _ [] p _ (Val None (OConcat b0 c)) fs' G Kn); try discriminate; try assumption.
    + apply Hh. reflexivity.
    + intros q Hq. apply Hh. exact Hq.
  - unfold kindok. cbn [ek]. split; [unfold pc; rewrite Cx, upd_len; exact Kp|]. split; [unfold fs'; cbn; rewrite Sj; exact Kj|]. split; [exact Fx|]. split.
    + rewrite Cx, firstn_upd. exact Kl.
    + exists (OConcat b0 c). split; [rewrite Cx; apply upd_same; exact Lp|]. intros b c' Q. injection Q as <- <-. lia.
  - intros P X cf0 s0 O Ar.
    assert (X3: ext (hole e3) fs3 P).
    { eapply ext_refines; [exact X| |exists []; rewrite app_nil_r; exact Sk]. rewrite Cx. apply refines_point; [apply Hh; reflexivity|]. intros q Hq. apply Hh. exact Hq. }
    pose proof (ext_grow _ _ _ _ _ G3 X3) as X1.
    eapply res_bind; [apply (H1 P X1 cf0 s0 O Ar)|intros x; unfold then2; apply same_bind|]. intros cf (s & a & Ke & A1 & Er & [Ra Ha]).
    assert (O1: okst fs1 s) by (eapply okst_grow; [exact G1|]; eapply okst_keep; eauto).
    assert (E2: r2 (reg s) (world s) = r2 (reg s0) (world s)) by (apply Lo; intros x Hx; apply Ke; lia).
    eapply res_bind; [apply (i_cl _ _ _ _ _ _ _ I3 P X3 cf s O1 A1)| |].
    + intros x Hx. unfold then2. rewrite Er. cbn. rewrite E2 in Hx. apply same_bind. exact Hx.
    + intros cf2 (s2 & Ke2 & [Xf|[J|J]]).
      * apply res_ret. exists s2. split; [eapply keep_trans; [exact Ke|eapply keep_le; [|exact Ke2]; lia]|]. left. unfold exitF in Xf |- *. rewrite K3 in Xf. cbn [ek].
        destruct Xf as (-> & op & Nop & [V|[Bad _]]); rewrite Kn in Nop; injection Nop as <-; [|destruct Bad].
        split; [reflexivity|]. exists (OConcat b0 c). split; [rewrite Cx; apply upd_same; exact Lp|]. left. unfold then2. rewrite Er. cbn [bind]. rewrite <- E2, <- V. cbn [vres]. replace (c - b0) with (S (c - S b0)) by lia. cbn [concat_regs].
        cbn in Ra. injection Ra as <-. rewrite (Ke2 b0) by lia. reflexivity.
      * rewrite Et in J. destruct J as (j & Hj & _). cbn in Hj. lia.
      * rewrite Ef in J. destruct J as (j & Hj & _). cbn in Hj. lia.
  - exact TT.
Qed.

(* type assertions *)
Lemma conv_id c t v : nothing_to_do c t = true -> hast t v -> do_conv c v = Ok v.
Proof.
  destruct c; cbn [nothing_to_do]; intros N H; try (apply Z.eqb_eq in N; subst t); cbn [conv_ty] in *.
  - apply hast_int in H as [z ->]. reflexivity.
  - apply hast_flt in H as [z ->]. reflexivity.
  - apply hast_iarr in H as [z ->]. reflexivity.
  - apply hast_farr in H as [z ->]. reflexivity.
  - apply hast_tab in H as [z ->]. reflexivity.
  - pose proof (within_spec _ _ _ N H) as H'. destruct v as [|[|]|[]| | | | | | |]; try discriminate H'; reflexivity.
  - pose proof (within_spec _ _ _ N H) as H'. destruct v as [|[|]|[]| | | | | | |]; try discriminate H'; reflexivity.
Qed.
Lemma then1_id fs0 t r c : TY fs0 t r -> nothing_to_do c t = true -> forall s, okst fs0 s -> r (reg s) (world s) = then1 r (unary W E (UAssert c)) (reg s) (world s).
Proof.
  intros T N s O. unfold Gen_opr.then1. pose proof (T s O) as T0. destruct (r (reg s) (world s)) as [[v w]| | |]; cbn; auto. rewrite (conv_id c t v N); [reflexivity|]. eapply T0; reflexivity.
Qed.
Lemma assert_inv fs0 b0 fs e r c fs' e' : Pre fs0 -> nactvar fs0 <= b0 -> INV fs0 b0 fs e r -> et e = [] -> ef e = [] ->
  (forall i, ek e = VKInt i -> ety e = T_INT) -> (forall f, ek e = VKFlt f -> ety e = T_FLT) ->
  (forall x, ek e = VLocal x \/ (ek e = VNonreloc x /\ x < nactvar fs0) -> nothing_to_do c (vty e) = true) ->
  code_type_assertion fs c e = Ok (fs', e') ->
  INV fs0 b0 fs' e' (then1 r (unary W E (UAssert c))) /\ ety e' = conv_ty' c (vty e) /\ et e' = [] /\ ef e' = [] /\
  match ek e' with
  | VKInt i => ek e = VKInt i | VKFlt f => ek e = VKFlt f | VK k => ek e = VK k /\ ks fs' = ks fs
  | VNonreloc x => (x < nactvar fs0 /\ (ek e = VLocal x \/ ek e = VNonreloc x)) \/ (nactvar fs0 <= x /\ temporary (nactvar fs0) e)
  | _ => False
  end.
Proof.
  intros P0 L I0 Et Ef Ni Nf Nl. unfold code_type_assertion. destruct (dischargevars fs e) as [fsx ex] eqn:Dx.
  destruct (dischargevars_inv W E fs0 b0 fs e r fsx ex P0 I0 Dx) as (I1 & D1 & Ty & Et1 & Ef1). rewrite Et in Et1. rewrite Ef in Ef1.
  assert (V1: vty ex = ety ex) by (unfold vty; destruct (ek ex); cbn in D1; try contradiction; reflexivity).
  pose proof (i_ty _ _ _ _ _ _ _ I1) as T1. rewrite V1 in T1. rewrite V1 in Ty.
  assert (Cs: (fsx = fs /\ ex = e) \/ (fsx = fs /\ exists r, ek e = VLocal r /\ ek ex = VNonreloc r) \/ ((exists p, ek ex = VReloc p) /\ forall n, temporary n e)) by (apply (dv_cases fs e fsx ex Dx)).
  assert (Same: forall fsz, ety ex = vty e -> nothing_to_do c (ety ex) = true -> INV fs0 b0 fsz ex r -> INV fs0 b0 fsz ex (then1 r (unary W E (UAssert c))) /\ ety ex = conv_ty' c (vty e)).
  { intros fsz Tz Nz Iz. split; [eapply inv_ext; [exact Iz|]; eapply then1_id; eauto|]. unfold conv_ty'. rewrite <- Tz, Nz. reflexivity. }
  assert (Rel: (let '(fs, e) := discharge2anyreg fsx ex in if nothing_to_do c (ety e) then Ok (fs, e) else Ok (emit fs (Conv (reg_of e) c), with_ty e (conv_ty c))) = Ok (fs', e') ->
    (forall p, ek ex <> VJmp p) -> (forall x, ek ex = VNonreloc x -> (x < nactvar fs0 /\ (ek e = VLocal x \/ ek e = VNonreloc x)) \/ (nactvar fs0 <= x /\ temporary (nactvar fs0) e)) -> ((exists x, ek ex = VNonreloc x) \/ temporary (nactvar fs0) e) ->
    INV fs0 b0 fs' e' (then1 r (unary W E (UAssert c))) /\ ety e' = conv_ty' c (vty e) /\ et e' = [] /\ ef e' = [] /\
    match ek e' with
    | VKInt i => ek e = VKInt i | VKFlt f => ek e = VKFlt f | VK k => ek e = VK k /\ ks fs' = ks fs
    | VNonreloc x => (x < nactvar fs0 /\ (ek e = VLocal x \/ ek e = VNonreloc x)) \/ (nactvar fs0 <= x /\ temporary (nactvar fs0) e)
    | _ => False
    end).
  { intros H Nj Nr Nt. destruct (discharge2anyreg fsx ex) as [fsy ey] eqn:Dy. destruct (d2any_inv W E fs0 b0 fsx ex r fsy ey P0 L I1 D1 Nj Dy) as (I2 & x & -> & Hx).
    cbn [ety with_k] in H.
    assert (Kx: (x < nactvar fs0 /\ (ek e = VLocal x \/ ek e = VNonreloc x)) \/ (nactvar fs0 <= x /\ temporary (nactvar fs0) e)).
    { destruct Hx as [Hx|Hx]; [apply Nr; exact Hx|]. subst x. right. split; [exact L|]. destruct Nt as [[x Hx]|Ht]; [|exact Ht].
      destruct (Nr x Hx) as [[Lx _]|[_ Ht]]; [|exact Ht]. exfalso.
      unfold discharge2anyreg in Dy. rewrite Hx in Dy. injection Dy as _ Q. apply (f_equal ek) in Q. cbn in Q. rewrite Hx in Q. injection Q as ->. lia. }
    destruct (nothing_to_do c (ety ex)) eqn:Nd.
    - injection H as <- <-. cbn [ety with_k ek et ef]. rewrite Et1, Ef1. split; [eapply inv_ext; [exact I2|]; eapply then1_id; eauto|].
      split; [unfold conv_ty'; rewrite <- Ty, Nd; reflexivity|]. auto.
    - assert (x = b0) as ->.
      { destruct Kx as [[Lx Hs]|[Lx _]].
        - exfalso. assert (nothing_to_do c (vty e) = true) by (apply (Nl x); destruct Hs; auto). rewrite <- Ty in H0. congruence.
        - pose proof (i_kind _ _ _ _ _ _ _ I2) as K. unfold kindok in K. cbn [ek with_k] in K. lia. }
      assert (Hey: with_k ex (VNonreloc b0) = mk (VNonreloc b0) [] [] (ety ex)) by (unfold with_k; rewrite Et1, Ef1; reflexivity).
      rewrite Hey in *. cbn [reg_of ek with_ty et ef] in H. injection H as <- <-. cbn [ety with_k ek et ef].
      split; [eapply emit_conv; eauto|]. split; [unfold conv_ty'; rewrite <- Ty, Nd; reflexivity|]. auto. }
  destruct (ek ex) eqn:Kx; try discriminate.
  - (* VK *) destruct c; try discriminate. destruct (Z.eqb_spec (ety ex) T_STR) as [Es|]; [|discriminate]. intros H; injection H as <- <-.
    destruct (Same fsx Ty ltac:(rewrite Es; reflexivity) I1) as [A B]. split; [exact A|]. split; [exact B|]. split; [exact Et1|]. split; [exact Ef1|]. rewrite Kx.
    destruct Cs as [[Cf Ce]|[(_ & x & _ & Q)|[[p Q] _]]]; try discriminate Q. subst. auto.
  - destruct c; try discriminate. intros H; injection H as <- <-. destruct Cs as [[Cf Ce]|[(_ & x & _ & Q)|[[p Q] _]]]; try discriminate Q. subst fsx ex.
    destruct (Same fs Ty ltac:(rewrite (Ni _ Kx); reflexivity) I1) as [A B]. split; [exact A|]. split; [exact B|]. rewrite Kx. auto.
  - destruct c; try discriminate. intros H; injection H as <- <-. destruct Cs as [[Cf Ce]|[(_ & x & _ & Q)|[[p Q] _]]]; try discriminate Q. subst fsx ex.
    destruct (Same fs Ty ltac:(rewrite (Nf _ Kx); reflexivity) I1) as [A B]. split; [exact A|]. split; [exact B|]. rewrite Kx. auto.
  - intros H. apply Rel; auto; try discriminate.
    + intros x Q. injection Q as <-. pose proof (i_kind _ _ _ _ _ _ _ I1) as K. unfold kindok in K. rewrite Kx in K.
      destruct Cs as [[_ Ce]|[(_ & y & Hy & Q)|[[p Q] _]]]; try discriminate Q.
      * subst ex. destruct K as [[K _]|[-> _]]; [left; auto|right]. split; [exact L|]. unfold temporary. rewrite Kx. exact L.
      * injection Q as <-. pose proof (i_kind _ _ _ _ _ _ _ I0) as K0. unfold kindok in K0. rewrite Hy in K0. left. split; [lia|auto].
    + left. eauto.
  - intros H. apply Rel; auto; try discriminate. right. destruct Cs as [[_ Ce]|[(_ & y & _ & Q)|[_ T]]]; [|discriminate Q|apply T]. subst ex. unfold temporary. rewrite Kx. exact Logic.I.
Qed.

(* indexing *)
Lemma index_type t (kt : tmap) v k w v' w' : hast t v -> index W E v k w = Ok (v', w') -> hast (elements t) v'.
Proof. intros H Q. rewrite <- (elements_eq t kt false). eapply get_type; eauto. Qed.
Lemma indexed_inv fs0 b0 fs1 x t1 r1 fs2 k r2 fs' e' : Pre fs0 -> nactvar fs0 <= b0 -> INV fs0 b0 fs1 (mk (VNonreloc x) [] [] t1) r1 ->
  INV fs1 (freereg fs1) fs2 k r2 -> vty k = ety k -> LO (nactvar fs0) r2 -> indexed fs2 (mk (VNonreloc x) [] [] t1) k = (fs', e') ->
  INV fs0 b0 fs' e' (then2 r1 r2 (index W E)) /\ exists idx, e' = mk (VIndexed false x idx (ety k)) [] [] t1.
Proof.
  intros P0 L I1 I2 Vk Lo. unfold indexed. destruct (exp2RK fs2 k) as [[fs3 k'] idx] eqn:X. intros Q. injection Q as <- <-. unfold with_k. cbn [ek et ef ety reg_of]. split; [|eauto].
  destruct (operand_g W E fs0 b0 fs1 _ r1 (R x) t1 L I1 eq_refl) as (H1 & G1 & F1 & Y1 & Z1). pose proof (grow_pre _ _ _ _ G1) as P1. pose proof (g_nact _ _ _ _ G1) as N1.
  destruct (exp2RK_inv W E fs1 (freereg fs1) fs2 k r2 fs3 k' idx P1 ltac:(lia) I2 X) as [I3 O3].
  destruct (operand_g W E fs1 (freereg fs1) fs3 k' r2 idx _ ltac:(lia) I3 O3) as (H3 & G3 & F3 & Y3 & Z3). rewrite N1, Vk in *.
  pose proof (grow_trans _ _ _ _ _ _ P0 G1 G3) as G. cbn [app] in G.
  apply hc_inv; cbn [ek et ef].
  - exact Logic.I.
  - exact G.
  - unfold kindok. cbn [ek]. cbn [tmpk] in F1. split; [lia|]. split.
    + intros Ht. destruct (Z1 x eq_refl) as [Hx|Hx]; [|exact Hx]. unfold tmp in Ht. destruct (Nat.ltb_spec x (nactvar fs0)); lia.
    + intros y Hy. destruct (Z3 y Hy); [left; assumption|right; lia].
  - cbn. apply (ty_then2 W fs0 t1 (ety k)); [apply (i_ty _ _ _ _ _ _ _ I1)|rewrite <- Vk; eapply ty_grow; [exact G1|apply (i_ty _ _ _ _ _ _ _ I2)]|].
    intros v v2 w v' w' Hv _. apply (index_type t1 T_ANY). exact Hv.
  - pose proof (seq_g W E fs0 b0 fs1 (freereg fs1) fs3 r1 r2 (opS W (R x) t1) (opS W (R x) t1) (opS W idx (ety k)) G1 G3 L ltac:(lia) H1 H3 Lo) as H.
    eapply hc_ext; [eapply (g_hc W E _ _ _ _ _ (fun p => index W E (fst p) (snd p))); [apply H|]|intros s O; apply pair_bind].
    + intros P s s' a _ Sa Ke. eapply op_keep; [|exact Ke|exact Sa]. intros y Hy. injection Hy as <-. rewrite F1. apply Y1. reflexivity.
    + intros P s [a b] Xp [[Ra Ha] [Rb Hb]]. cbn [fst snd] in *. cbn in Ra. injection Ra as <-. unfold valF. cbn [ek ety]. exists b. auto.
Qed.
Lemma global_inv fs0 u name fs1 k fs' e' : Pre fs0 -> nactvar fs0 <= freereg fs0 -> (forall w u, hast (uty fs0 u) (getup E w u)) -> addk fs0 (Str name) = (fs1, k) ->
  indexed fs1 (init (VUpval u) (uty fs1 u)) (init (VK k) T_STR) = (fs', e') ->
  INV fs0 (freereg fs0) fs' e' (fun l w => index W E (getup E w u) (Str name) w) /\ exists idx, e' = mk (VIndexed true u idx T_STR) [] [] (uty fs0 u).
Proof.
  intros P0 L PU Ak. unfold indexed. destruct (exp2RK fs1 (init (VK k) T_STR)) as [[fs2 k'] idx] eqn:X. intros Q. injection Q as <- <-. unfold with_k, init. cbn [ek et ef ety].
  assert (I0: INV fs0 (freereg fs0) fs1 (init (VK k) T_STR) (fun _ w => Ok (Str name, w))).
  { destruct (addk_spec fs0 (Str name) fs1 k (p_kok _ P0) ltac:(intros f Q; discriminate Q) Ak) as (l & -> & N & Kk). apply hc_inv; cbn [ek et ef init].
    - exact Logic.I.
    - apply grow_ks; [apply grow_refl; exact P0|exact Kk].
    - unfold kindok. cbn. split; [reflexivity|]. eapply nth_lt; exact N.
    - intros s O v w Q. injection Q as <- _. reflexivity.
    - intros P Xp cf0 s0 O Ar. apply res_ret. exists s0. split; [apply keep_refl|]. left. split; [exact Ar|]. exists (Str name). auto. }
  assert (Hu: uty fs1 u = uty fs0 u) by (rewrite (g_uty _ _ _ _ (i_grow _ _ _ _ _ _ _ I0)); reflexivity). rewrite Hu. split; [|eauto].
  destruct (exp2RK_inv W E fs0 (freereg fs0) fs1 _ _ fs2 k' idx P0 L I0 X) as [I3 O3].
  destruct (operand_g W E fs0 (freereg fs0) fs2 k' _ idx _ L I3 O3) as (H3 & G3 & F3 & Y3 & Z3).
  apply hc_inv; cbn [ek et ef].
  - exact Logic.I.
  - exact G3.
  - unfold kindok. cbn [ek]. split; [lia|]. split; [discriminate|]. intros y Hy. rewrite Nat.add_0_r. apply Z3. exact Hy.
  - cbn. intros s O v w Q. eapply (index_type _ T_STR); [|exact Q]. apply PU.
  - pose proof (g_hc W E fs0 (freereg fs0) fs2 _ _ (fun a w => index W E (getup E w u) a w) (fun P s o => valF W E P fs2 (mk (VIndexed true u idx T_STR) [] [] (uty fs0 u)) s o) H3) as H.
    eapply hc_ext; [apply H|intros s O; reflexivity]. intros P s a Xp [Ra Ha]. unfold valF. cbn [ek ety]. exists a. auto.
Qed.

(* 'and' and 'or' *)
Definition rand (r1 r2 : result) : result := fun l w => bind (r1 l w) (fun '(v, w) => if truthy v then r2 l w else Ok (v, w)).
Definition ror (r1 r2 : result) : result := fun l w => bind (r1 l w) (fun '(v, w) => if truthy v then Ok (v, w) else r2 l w).
Lemma falsish v : truthy v = false -> hast T_FALSISH v.
Proof. destruct v as [|[|]|[]| | | | | | |]; intros H; try discriminate H; reflexivity. Qed.
Lemma truish v : truthy v = true -> hast T_TRUISH v.
Proof. destruct v as [|[|]|[]| | | | | | |]; intros H; try discriminate H; reflexivity. Qed.
Lemma exitJ_val c l tv cf s o : exitJ W c l tv cf s o -> exists v, o = Ok (v, world s) /\ truthy v = tv.
Proof.
  intros (j & _ & A & V). unfold atj in A. destruct (tset c j) as [[b cc]|].
  - destruct V as [-> ->]. exists (reg s b). split; [reflexivity|apply A].
  - exists (Bool tv). split; [exact V|]. destruct tv; reflexivity.
Qed.
(* the jumps of the first operand stay pending *)
Lemma join_inv (tv : bool) fs0 b0 fs1 l r1 fs2 e2 r2 rr ty : Pre fs0 -> nactvar fs0 <= b0 -> Grow fs0 fs1 nohole l ->
  HC fs0 b0 fs1 (if tv then [] else l) (if tv then l else []) r1 (is W tv) -> INV fs1 b0 fs2 e2 r2 -> discharged (ek e2) -> LO (nactvar fs0) r2 -> TY fs0 ty rr ->
  (forall lo w, rr lo w = bind (r1 lo w) (fun '(v, w) => if Bool.eqb (truthy v) tv then r2 lo w else Ok (v, w))) ->
  INV fs0 b0 fs2 (mk (ek e2) (if tv then et e2 else et e2 ++ l) (if tv then ef e2 ++ l else ef e2) ty) rr.
Proof.
  intros P0 L G1 H1 I2 D Lo T Er. pose proof (grow_pre _ _ _ _ G1) as P1. pose proof (i_grow _ _ _ _ _ _ _ I2) as G2. pose proof (g_nact _ _ _ _ G1) as N1.
  set (e := mk _ _ _ ty). assert (Hh: forall p, hole e p <-> hole e2 p) by (intros p; unfold hole, e; cbn; tauto).
  pose proof (grow_trans _ _ _ _ _ _ P0 G1 G2) as G.
  assert (Ts: forall j, 0 < cnt l j -> tset (code fs2) j = tset (code fs1) j).
  { intros j Hj. pose proof (g_uniq _ _ _ _ G1 j) as U. rewrite cnt_app in U. eapply grow_jok; [exact P1|exact G2|apply (g_jok _ _ _ _ G1); rewrite cnt_app; lia|lia]. }
  split.
  - assert (C: forall j, cnt (l ++ pend e2) j = cnt (pend e) j). { intros j. unfold pend, vj, e. destruct tv; cbn [et ef ek]; rewrite !cnt_app; lia. }
    apply (grow_cnt fs0 fs2 (hole e) (l ++ pend e2) (pend e) C). exact G.
  - pose proof (i_kind _ _ _ _ _ _ _ I2) as K. rewrite N1 in K. unfold kindok in *. unfold e. cbn [ek]. exact K.
  - intros P X cf0 s0 O Ar.
    assert (X2: ext (hole e2) fs2 P) by (eapply ext_hole; [|exact X]; intros p Hp; apply Hh; exact Hp).
    pose proof (ext_grow _ _ _ _ _ G2 X2) as X1. rewrite Er.
    eapply res_bind; [apply (H1 P X1 cf0 s0 O Ar)|intros x; apply same_bind|]. intros cf (s & Ke & Hc).
    assert (Hc': (arrive fs1 cf s /\ is W tv P s (r1 (reg s0) (world s0))) \/ exitJ W (code fs1) l (negb tv) cf s (r1 (reg s0) (world s0))).
    { destruct Hc as [Hc|Hc]; [left; exact Hc|right]. destruct tv; destruct Hc as [J|J]; cbn [negb]; try exact J; destruct J as (j & Hj & _); cbn in Hj; lia. }
    destruct Hc' as [[A1 (v & Ev & Tv)]|J].
    + rewrite Ev. cbn [bind]. rewrite Tv, eqb_reflx. assert (O1: okst fs1 s) by (eapply okst_grow; [exact G1|]; eapply okst_keep; eauto).
      assert (E2: r2 (reg s) (world s) = r2 (reg s0) (world s)) by (apply Lo; intros x Hx; apply Ke; lia). rewrite <- E2.
      eapply res_imp; [|apply (i_cl _ _ _ _ _ _ _ I2 P X2 cf s O1 A1)]. intros cf2 (s2 & Ke2 & Hx). exists s2. split; [eapply keep_trans; eauto|].
      destruct Hx as [Hx|[Hx|Hx]].
      * left. unfold exitF, valF, e in *. cbn [ek ety] in *. destruct (ek e2); cbn in D; try contradiction; exact Hx.
      * right. left. unfold e. cbn [et]. destruct tv; [exact Hx|apply exitJ_app; exact Hx].
      * right. right. unfold e. cbn [ef]. destruct tv; [apply exitJ_app; exact Hx|exact Hx].
    + destruct (exitJ_val _ _ _ _ _ _ J) as (v & Ev & Tv). rewrite Ev. cbn [bind]. rewrite Tv. replace (Bool.eqb (negb tv) tv) with false by (destruct tv; reflexivity).
      rewrite <- Ev. apply res_ret. exists s. split; [exact Ke|]. right. apply (exitJ_tset W _ (code fs2) _ _ _ _ _ Ts) in J.
      unfold e. cbn [et ef]. destruct tv; cbn [negb] in J; [right; apply exitJ_app2; exact J|left; apply exitJ_app2; exact J].
  - unfold vty, e. cbn [ek ety]. destruct (ek e2); cbn in D; try contradiction; exact T.
Qed.
Definition and_ty (t1 t2 : tmap) : tmap := if none_of t1 T_TRUISH then Z.land t1 T_FALSISH else Z.lor t2 (Z.land t1 T_FALSISH).
Definition or_ty (t1 t2 : tmap) : tmap := if none_of t1 T_FALSISH then Z.land t1 T_TRUISH else Z.lor t2 (Z.land t1 T_TRUISH).
Lemma and_type fs0 t1 t2 r1 r2 : TY fs0 t1 r1 -> TY fs0 t2 r2 -> TY fs0 (and_ty t1 t2) (rand r1 r2).
Proof.
  intros T1 T2 s O v w. unfold rand. pose proof (T1 s O) as H1. destruct (r1 (reg s) (world s)) as [[a w1]| | |]; cbn; try discriminate. specialize (H1 a w1 eq_refl).
  unfold and_ty. destruct (none_of t1 T_TRUISH) eqn:N.
  - rewrite (falsish_ty _ _ N H1). intros Q. injection Q as <- _. apply hast_land. split; [exact H1|]. apply falsish. eapply falsish_ty; eauto.
  - destruct (truthy a) eqn:Ta; intros Q; apply hast_lor.
    + left. apply (T2 (mkst (reg s) w1) O v w Q).
    + injection Q as <- _. right. apply hast_land. split; [exact H1|]. apply falsish. exact Ta.
Qed.
Lemma or_type fs0 t1 t2 r1 r2 : TY fs0 t1 r1 -> TY fs0 t2 r2 -> TY fs0 (or_ty t1 t2) (ror r1 r2).
Proof.
  intros T1 T2 s O v w. unfold ror. pose proof (T1 s O) as H1. destruct (r1 (reg s) (world s)) as [[a w1]| | |]; cbn; try discriminate. specialize (H1 a w1 eq_refl).
  unfold or_ty. destruct (none_of t1 T_FALSISH) eqn:N.
  - rewrite (truish_ty _ _ N H1). intros Q. injection Q as <- _. apply hast_land. split; [exact H1|]. apply truish. eapply truish_ty; eauto.
  - destruct (truthy a) eqn:Ta; intros Q; apply hast_lor.
    + injection Q as <- _. right. apply hast_land. split; [exact H1|]. apply truish. exact Ta.
    + left. apply (T2 (mkst (reg s) w1) O v w Q).
Qed.

(* calls *)
Definition valsS (b m : nat) (P : prog) (s : state) (vs : list val) : Prop := values (reg s) b m = vs.
Lemma values_keep b m s s' : (forall x, b <= x -> x < b + m -> s' x = s x) -> values s' b m = values s b m.
Proof. revert b. induction m as [|m IH]; intros b H; cbn; [reflexivity|]. rewrite H by lia. rewrite IH; [reflexivity|]. intros x A B. apply H; lia. Qed.
Lemma call_inv fs0 b0 fs1 t1 rf fs2 m ra : Pre fs0 -> nactvar fs0 <= b0 -> INV fs0 b0 fs1 (mk (VNonreloc b0) [] [] t1) rf -> freereg fs1 = S b0 ->
  Grow fs1 fs2 nohole [] -> HCg fs1 (S b0) fs2 ra (valsS (S b0) m) -> LO (nactvar fs0) ra ->
  INV fs0 b0 (with_free (emit fs2 (Call b0 m)) (S b0)) (init (VNonreloc b0) T_ANY) (fun l w => bind (rf l w) (fun '(v, w) => bind (ra l w) (fun '(vs, w) => call E v vs w))).
Proof.
  intros P0 L I1 F1 G2 H2 Lo. destruct (operand_g W E fs0 b0 fs1 _ rf (R b0) t1 L I1 eq_refl) as (H1 & G1 & _).
  pose proof (grow_trans _ _ _ _ _ _ P0 G1 G2) as G. cbn [app] in G. pose proof (grow_pre _ _ _ _ G) as P2.
  pose proof (seq_g W E fs0 b0 fs1 (S b0) fs2 rf ra (opS W (R b0) t1) (opS W (R b0) t1) (valsS (S b0) m) G1 G2 L ltac:(lia) H1 H2 Lo) as H.
  assert (St: forall (P : prog) (s s' : state) (a : val), ext nohole fs2 P -> opS W (R b0) t1 P s a -> keep (S b0) s s' -> opS W (R b0) t1 P s' a).
  { intros P s s' a _ Sa Ke. eapply op_keep; [|exact Ke|exact Sa]. intros y Hy. injection Hy as <-. lia. }
  specialize (H St). apply hc_inv; cbn [ek et ef init].
  - exact Logic.I.
  - eapply grow_same; [apply same_free|]. apply grow_emit; auto; [discriminate|intros p []].
  - right. split; reflexivity.
  - intros s O v w _. apply hast_any.
  - eapply hc_same; [apply same_free|]. intros P X cf0 s0 O Ar.
    assert (X': ext nohole fs2 P) by (eapply ext_refines; [exact X|apply refines_emit; [exact P2|intros p []]|exists []; rewrite app_nil_r; reflexivity]).
    eapply res_bind; [apply (H P X' cf0 s0 O Ar)| |].
    { intros x Hx. rewrite <- (pair_bind W rf ra (fun p w => call E (fst p) (snd p) w)). apply same_bind. exact Hx. }
    intros cf (s & [a vs] & Ke & A1 & Er & [[Ra Ha] Va]). cbn [fst snd] in *. cbn in Ra. injection Ra as Ra. subst a. unfold valsS in Va.
    eapply res_steps; [eapply emit_run; eauto; intros p []|].
    assert (Tx: nth_error (text P) (pc fs2) = Some (Call b0 m)) by (eapply text_fixed; [exact X|apply emit_nth; exact P2|exact Logic.I|intros []]).
    rewrite <- (pair_bind W rf ra (fun p w => call E (fst p) (snd p) w)). rewrite Er. cbn [bind fst snd].
    destruct (call E (reg s b0) vs (world s)) as [[v w]| | |] eqn:Ec.
    + eapply res_steps; [apply steps_one; unfold Gen_model.step; rewrite Tx, Va, Ec; reflexivity|]. apply res_ret.
      exists (mkst (fun x => if x <? b0 then reg s x else if x =? b0 then v else junk E w x) w). split; [|left; split; [apply arrive_pc; rewrite pc_emit; auto|]].
      * intros x Hx. cbn [reg]. destruct (Nat.ltb_spec x b0); [apply Ke; exact Hx|lia].
      * unfold valF, init. cbn [ek reg world]. rewrite Nat.ltb_irrefl, Nat.eqb_refl. reflexivity.
    + apply res_fail. unfold Gen_model.step. rewrite Tx, Va, Ec. reflexivity.
    + apply res_fail. unfold Gen_model.step. rewrite Tx, Va, Ec. exact Logic.I.
    + apply res_fail. unfold Gen_model.step. rewrite Tx, Va, Ec. exact Logic.I.
Qed.
Lemma args_nil fs : Pre fs -> HCg fs (freereg fs) fs (fun _ w => Ok ([], w)) (valsS (freereg fs) 0).
Proof. intros P0 P X cf0 s0 O Ar. apply res_ret. exists s0, []. split; [apply keep_refl|]. split; [exact Ar|]. split; reflexivity. Qed.
Lemma args_cons fs0 b0 fs1 t1 r1 fs2 m ra : Pre fs0 -> nactvar fs0 <= b0 -> INV fs0 b0 fs1 (mk (VNonreloc b0) [] [] t1) r1 ->
  Grow fs1 fs2 nohole [] -> HCg fs1 (S b0) fs2 ra (valsS (S b0) m) -> LO (nactvar fs0) ra ->
  HCg fs0 b0 fs2 (fun l w => bind (r1 l w) (fun '(v, w) => bind (ra l w) (fun '(vs, w) => Ok (v :: vs, w)))) (valsS b0 (S m)).
Proof.
  intros P0 L I1 G2 H2 Lo. destruct (operand_g W E fs0 b0 fs1 _ r1 (R b0) t1 L I1 eq_refl) as (H1 & G1 & _).
  pose proof (seq_g W E fs0 b0 fs1 (S b0) fs2 r1 ra (opS W (R b0) t1) (opS W (R b0) t1) (valsS (S b0) m) G1 G2 L ltac:(lia) H1 H2 Lo) as H.
  eapply g_ext; [eapply (g_map W E _ _ _ _ _ (fun p => fst p :: snd p)); [apply H|]|intros s O; apply (pair_bind W r1 ra (fun p w => Ok (fst p :: snd p, w)))].
  - intros P s s' a _ Sa Ke. eapply op_keep; [|exact Ke|exact Sa]. intros y Hy. injection Hy as <-. lia.
  - intros P s [a vs] X [[Ra Ha] Va]. cbn [fst snd] in *. cbn in Ra. injection Ra as <-. unfold valsS in *. cbn. rewrite Va. reflexivity.
Qed.
End opr2.
