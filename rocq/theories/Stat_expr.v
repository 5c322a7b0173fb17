(* The pieces of statements that are made of expressions: conditions, declarations, assignments and
   calls, from any state of the code generator (jumps may wait for the next instruction). *)
Require Import ZArith List Bool Arith Lia.
From Coq Require Import Floats.SpecFloat.
From Verif Require Import Base Float_model Op_model Op_spec Op_proofs Gen_model Gen_spec Gen_facts Gen_run Gen_inv Gen_ops Gen_put Gen_cond Gen_not Gen_seq Gen_opr Gen_opr2 Gen_gen Gen_store Gen_store2 Gen_proofs Stat_model Stat_spec.
Import ListNotations.
Local Open Scope nat_scope.

Ltac bo Q H := match type of Q with bind ?o ?f = Ok ?z => destruct o as [[? ?]| | |] eqn:H; cbn [bind] in Q; try discriminate Q end.
Ltac okeq Q := match type of Q with Ok ?a = Ok ?b => apply (f_equal (fun o => match o with Ok x => x | _ => b end)) in Q; cbv beta iota in Q end.
Section expr.
Variable W : Type.
Variable E : env W.
Variable ut : nat -> tmap.
Hypothesis PL : plain W E ut.
Notation Res := (Res W E).
Notation INV := (INV W E).
Notation HC := (HC W E).
Notation arrive := (arrive W).
Notation gen := (gen (fmod E) (fpow E)).
Notation then1 := (then1 W).
(* the code generator is at a place with n variables of types lt *)
Record At (n : nat) (lt : nat -> tmap) (fs : fstate) : Prop := {
  a_pre : Pre fs; a_n : nactvar fs = n; a_free : n <= freereg fs; a_lt : lty fs = lt; a_ut : uty fs = ut; a_ty : types_ok n lt ut }.
Lemma gen_run n lt x fs fs1 e : At n lt fs -> tame n lt ut x = true -> gen fs x = Ok (fs1, e) ->
  INV fs (freereg fs) fs1 e (eval W E n lt ut x) /\ vty e = styp n lt ut x /\ SH n x fs1 e.
Proof. intros [P0 A1 A2 A3 A4 [T1 T2]] Tm G. exact (proj1 (gen_good n lt ut T1 T2 W E PL) x Tm fs fs1 e P0 A1 A3 A4 A2 G). Qed.
(* where a condition goes *)
Definition goes (fs0 fs2 : fstate) (lj : list nat) (on : bool) (s0 : state W) (o : outcome (val * W)) (cf : config W) : Prop :=
  exists s v, keep W (freereg fs0) s0 s /\ o = Ok (v, world s) /\
    if Bool.eqb (truthy v) on then exists j, 0 < cnt lj j /\ atj W (code fs2) j cf s else arrive fs2 cf s.
Definition jumps (fs fs2 : fstate) (lj : list nat) (on : bool) (r : result W) : Prop :=
  Grow fs fs2 nohole lj /\ freereg fs2 = freereg fs /\
  forall P, ext nohole fs2 P -> forall cf0 s0, okst W fs s0 -> arrive fs cf0 s0 -> Res P cf0 (r (reg s0) (world s0)) (goes fs fs2 lj on s0 (r (reg s0) (world s0))).
Lemma exitJ_goes fs0 fs2 lj tv cf s s0 o : keep W (freereg fs0) s0 s -> exitJ W (code fs2) lj tv cf s o -> goes fs0 fs2 lj tv s0 o cf.
Proof.
  intros Ke (j & Hj & At & Ev). unfold atj in At. destruct (tset (code fs2) j) as [[b cc]|] eqn:T.
  - destruct At as [-> Tr], Ev as [-> ->]. exists s, (reg s b). split; [exact Ke|]. split; [reflexivity|]. rewrite Tr, eqb_reflx. exists j. split; [exact Hj|]. unfold atj. rewrite T. auto.
  - exists s, (Bool tv). split; [exact Ke|]. split; [exact Ev|]. replace (truthy (Bool tv)) with tv by (destruct tv; reflexivity). rewrite eqb_reflx. exists j. split; [exact Hj|]. unfold atj. rewrite T. exact At.
Qed.
Lemma goiftrue_jumps n lt x fs fs1 e fs2 e2 : At n lt fs -> tame n lt ut x = true -> tested n lt ut x T_FALSISH = true ->
  gen fs x = Ok (fs1, e) -> goiftrue fs1 e = (fs2, e2) -> jumps fs fs2 (ef e2) false (eval W E n lt ut x).
Proof.
  intros A Tm Td G X. destruct (gen_run _ _ _ _ _ _ A Tm G) as (I0 & V & S). destruct A as [P0 A1 A2 A3 A4 TO].
  assert (Tp: temporary (nactvar fs) e -> none_of (vty e) T_FALSISH = false).
  { rewrite A1. intros T. rewrite V. apply tested_temp; [exact Td|]. eapply sh_temporary; eauto. }
  assert (Lq: nactvar fs <= freereg fs) by lia.
  destruct (goiftrue_inv W E _ _ _ _ _ _ _ P0 Lq I0 (sh_vk _ _ _ _ S) Tp X) as (Ga & F1 & _ & _ & Hc & _). split; [exact Ga|]. split; [exact F1|].
  intros P Xp cf0 s0 O A. eapply res_imp; [|apply (Hc P Xp cf0 s0 O A)].
  intros c1 (s & Ke & [[Ar (v & Ev & Tv)]|[(j & Hj & _)|J]]); [|cbn in Hj; lia|eapply exitJ_goes; eauto].
  exists s, v. split; [exact Ke|]. split; [exact Ev|]. rewrite Tv. exact Ar.
Qed.
Lemma goiffalse_jumps n lt x fs fs1 e fs2 e2 : At n lt fs -> tame n lt ut x = true -> tested n lt ut x T_TRUISH = true ->
  gen fs x = Ok (fs1, e) -> goiffalse fs1 e = (fs2, e2) -> jumps fs fs2 (et e2) true (eval W E n lt ut x).
Proof.
  intros A Tm Td G X. destruct (gen_run _ _ _ _ _ _ A Tm G) as (I0 & V & S). destruct A as [P0 A1 A2 A3 A4 TO].
  assert (Tp: temporary (nactvar fs) e -> none_of (vty e) T_TRUISH = false).
  { rewrite A1. intros T. rewrite V. apply tested_temp; [exact Td|]. eapply sh_temporary; eauto. }
  assert (Lq: nactvar fs <= freereg fs) by lia.
  destruct (goiffalse_inv W E _ _ _ _ _ _ _ P0 Lq I0 (sh_vk _ _ _ _ S) Tp X) as (Ga & F1 & _ & _ & Hc & _). split; [exact Ga|]. split; [exact F1|].
  intros P Xp cf0 s0 O A. eapply res_imp; [|apply (Hc P Xp cf0 s0 O A)].
  intros c1 (s & Ke & [[Ar (v & Ev & Tv)]|[J|(j & Hj & _)]]); [|eapply exitJ_goes; eauto|cbn in Hj; lia].
  exists s, v. split; [exact Ke|]. split; [exact Ev|]. rewrite Tv. exact Ar.
Qed.
Lemma cond_jumps n lt x fs fs1 e fs2 l : At n lt fs -> tame n lt ut x = true -> tested n lt ut x T_FALSISH = true ->
  gen fs x = Ok (fs1, e) -> cond fs1 e = (fs2, l) -> jumps fs fs2 l false (eval W E n lt ut x).
Proof.
  intros A Tm Td G C. unfold cond in C.
  assert (Dec: ek e = VNil \/ (match ek e with VNil => with_k e VFalse | _ => e end) = e) by (destruct (ek e); auto).
  destruct Dec as [K|K].
  - rewrite K in C. destruct (tofalse_gen W E _ _ _ _ _ _ _ Tm G K) as (e' & A1 & A2 & A3 & A4 & A5 & A6 & A7 & A8).
    destruct (goiftrue_alike fs1 e e' A2 A3 A4 A5) as [B1 B2]. destruct (goiftrue fs1 (with_k e VFalse)) as [f9 e9]. destruct (goiftrue fs1 e') as [f8 e8] eqn:X. cbn in B1, B2. subst. injection C as <- <-. rewrite B2.
    destruct (goiftrue_jumps n lt (tofalse x) fs fs1 e' f8 e8 A A7 ltac:(unfold tested; rewrite A6; reflexivity) A1 X) as (H1 & H2 & H3). split; [exact H1|]. split; [exact H2|].
    intros P Xp cf0 s0 O Ar. specialize (H3 P Xp cf0 s0 O Ar). specialize (A8 (reg s0) (world s0)). unfold alike in A8.
    destruct (eval W E n lt ut x (reg s0) (world s0)) as [[v w]| | |], (eval W E n lt ut (tofalse x) (reg s0) (world s0)) as [[v' w']| | |]; try discriminate A8; try (rewrite ?A8; exact H3).
    destruct A8 as [T ->]. destruct H3 as [H|[(c1 & St & H)|(c1 & St & s & v0 & Ke & Q & H)]]; [left; exact H|right; left; exists c1; split; [exact St|exact H]|].
    right. right. exists c1. split; [exact St|]. exists s, v. injection Q as <- ->. split; [exact Ke|]. split; [reflexivity|]. rewrite T. exact H.
  - rewrite K in C. destruct (goiftrue fs1 e) as [f9 e9] eqn:X. injection C as <- <-. eapply goiftrue_jumps; eauto.
Qed.

(* assignments *)
Lemma store_ld n lt fs fs1 e rs r fs2 : Pre fs -> nactvar fs = n -> lty fs = lt -> r < n -> n <= freereg fs -> INV fs (freereg fs) fs1 e rs -> (forall p, ek e <> VJmp p) -> et e = [] -> ef e = [] ->
  declared (lt r) -> ((exists x, ek e = VNonreloc x) \/ forall c, conv_of (lt r) = Some c -> nothing_to_do c (vty e) = true) ->
  fst (exp2reg (freeexp fs1 e) e r) = fs2 ->
  freereg fs2 = freereg fs /\ LD W E fs (freereg fs) fs2 r (then1 rs (coerceW W (lt r))) /\ Grow fs fs2 nohole [].
Proof.
  intros P0 A1 A3 Lr Lf I0 Nj Et Ef Dc Sta X.
  assert (Lq: nactvar fs <= freereg fs) by lia.
  destruct (dischargevars (freeexp fs1 e) e) as [fx ex] eqn:Dx.
  assert (D: exists fy, INV fs (freereg fs) fy ex rs /\ samefs fy fx /\ discharged (ek ex) /\ vty ex = vty e /\ et ex = [] /\ ef ex = [] /\ freereg fx = freereg fs /\ (forall p, ek ex <> VJmp p)).
  { assert (Dk: (exists x, ek e = VNonreloc x) \/ freeexp fs1 e = fs1) by (unfold freeexp; destruct (ek e); eauto).
    destruct Dk as [[x Kx]|Fe].
    - assert (dischargevars (freeexp fs1 e) e = (freeexp fs1 e, e)) as Q by (unfold dischargevars; rewrite Kx; reflexivity). rewrite Q in Dx. injection Dx as <- <-. exists fs1.
      assert (De: discharged (ek e)) by (rewrite Kx; exact Logic.I).
      destruct (freeexp_base (nactvar fs) (freereg fs) fs1 e Lq (g_nact _ _ _ _ (i_grow _ _ _ _ _ _ _ I0)) (i_kind _ _ _ _ _ _ _ I0) De) as [Fb Sf]. auto 10.
    - rewrite Fe in Dx. destruct (dischargevars_inv W E _ _ _ _ _ _ _ P0 I0 Dx) as (I1 & D1 & Ty & Et1 & Ef1). exists fx. split; [exact I1|]. split; [apply same_refl|]. split; [exact D1|]. split; [exact Ty|].
      split; [congruence|]. split; [congruence|]. 
      destruct (dv_cases _ _ _ _ Dx) as [[-> ->]|[(-> & y & Ky & Kx)|[[p Kx] _]]].
      + split; [|exact Nj]. pose proof (i_kind _ _ _ _ _ _ _ I1) as Ki. unfold kindok in Ki. destruct (ek e) eqn:Ke; cbn in D1; try contradiction; try lia; try (intuition; fail).
        destruct Ki as [Ki|[-> Ki]]; [lia|]. exfalso. unfold freeexp in Fe. rewrite Ke in Fe. unfold free_reg in Fe. rewrite (g_nact _ _ _ _ (i_grow _ _ _ _ _ _ _ I1)) in Fe.
        destruct (Nat.leb_spec (nactvar fs) (freereg fs)); [|lia]. apply (f_equal freereg) in Fe. cbn in Fe. lia.
      + split; [|intros p Q; congruence]. pose proof (i_kind _ _ _ _ _ _ _ I0) as Ki. unfold kindok in Ki. rewrite Ky in Ki. lia.
      + split; [|intros q Q; congruence]. pose proof (i_kind _ _ _ _ _ _ _ I1) as Ki. unfold kindok in Ki. rewrite Kx in Ki. lia. }
  destruct D as (fy & I1 & Sf & D1 & Ty & Et1 & Ef1 & Fr & Nj1).
  assert (Dr: discharge2reg (freeexp fs1 e) e r = discharge2reg fx ex r).
  { unfold discharge2reg. rewrite Dx. assert (dischargevars fx ex = (fx, ex)) as -> by (unfold dischargevars; destruct (ek ex); cbn in D1; try contradiction; reflexivity). reflexivity. }
  destruct (discharge2reg fx ex r) as [f2 e2] eqn:D2. 
  assert (St1: (exists x, ek ex = VNonreloc x) \/ (forall c, conv_of (lty fs r) = Some c -> nothing_to_do c (ety ex) = true)).
  { rewrite A3. destruct Sta as [[x K]|Sta].
    - left. unfold dischargevars in Dx. rewrite K in Dx. injection Dx as _ <-. eauto.
    - right. intros c Hc. specialize (Sta c Hc). rewrite <- Ty in Sta. unfold vty in Sta. destruct (ek ex); cbn in D1; try contradiction; exact Sta. }
  destruct (d2r_local W E fs (freereg fs) fy ex rs r fx f2 e2 P0 ltac:(lia) Lq I1 D1 Nj1 Et1 Ef1 ltac:(rewrite A3; exact Dc) St1 Sf D2) as (H & G & E2 & F2).
  assert (fs2 = f2) as ->.
  { rewrite <- X. destruct (exp2reg_local (freeexp fs1 e) e r Et Ef) as [Q|Q]; rewrite Dr in *; cbn in *; auto.
    - subst e2. intros p Q. discriminate Q.
    - subst e2. cbn in Q. rewrite Et1, Ef1 in Q. destruct Q as [Q|Q]; contradiction. }
  split; [lia|]. rewrite A3 in H. auto.
Qed.
Lemma storelocal_typed n lt x fs fs1 e r fs2 : At n lt fs -> tame n lt ut x = true -> simple x = true -> shape_of x <> Jump -> r < n -> declared (lt r) ->
  (forall q, x = ELocal q -> lt q = T_ANY -> lt r = T_ANY) -> gen fs x = Ok (fs1, e) -> storelocal fs1 r e = Ok fs2 ->
  freereg fs2 = freereg fs /\ LD W E fs (freereg fs) fs2 r (then1 (eval W E n lt ut x) (coerceW W (lt r))) /\ Grow fs fs2 nohole [].
Proof.
  intros A Tm Sm Sj Lr Dc Lc G X. destruct (gen_run _ _ _ _ _ _ A Tm G) as (I0 & V & S). destruct A as [P0 A1 A2 A3 A4 TO].
  destruct (sh_simple _ _ _ _ S Sm) as [Et Ef]. assert (Lq: nactvar fs <= freereg fs) by lia.
  assert (Nj: forall p, ek e <> VJmp p) by (intros p K; pose proof (sh_kind _ _ _ _ S) as Kk; rewrite K in Kk; auto).
  assert (Done: forall rs, freereg fs2 = freereg fs /\ LD W E fs (freereg fs) fs2 r (then1 rs (coerceW W (lt r))) /\ Grow fs fs2 nohole [] ->
     (forall s, then1 rs (coerceW W (lt r)) (reg s) (world s) = then1 (eval W E n lt ut x) (coerceW W (lt r)) (reg s) (world s)) ->
     freereg fs2 = freereg fs /\ LD W E fs (freereg fs) fs2 r (then1 (eval W E n lt ut x) (coerceW W (lt r))) /\ Grow fs fs2 nohole []).
  { intros rs (F & H & Gr) Q. split; [exact F|]. split; [|exact Gr]. eapply ld_ext; [|exact H]. intros s _. apply Q. }
  assert (Rt: register_type fs1 r = lt r).
  { unfold register_type. rewrite (g_nact _ _ _ _ (i_grow _ _ _ _ _ _ _ I0)), (g_lty _ _ _ _ (i_grow _ _ _ _ _ _ _ I0)), A1, A3. apply Nat.ltb_lt in Lr. rewrite Lr. reflexivity. }
  unfold storelocal in X. destruct (check_valid_store fs1 (register_type fs1 r) e) as [[f1 e1]| | |] eqn:Ck; cbn [bind] in X; try discriminate X. injection X as X. rewrite Rt in Ck.
  assert (Plain: f1 = fs1 -> e1 = e -> ((exists x, ek e = VNonreloc x) \/ forall c, conv_of (lt r) = Some c -> nothing_to_do c (vty e) = true) ->
     freereg fs2 = freereg fs /\ LD W E fs (freereg fs) fs2 r (then1 (eval W E n lt ut x) (coerceW W (lt r))) /\ Grow fs fs2 nohole []).
  { intros -> -> Sta. eapply (store_ld n lt fs fs1 e); eauto. }
  assert (Conv: forall c, conv_of (lt r) = Some c -> vindexed_ty e = T_ANY -> (match ek e with VNonreloc _ => False | _ => True end) ->
     (let '(fs, ex, x) := exp2RK fs1 e in match x with R r => Ok (emit fs (Conv r c), ex) | K _ => UB end) = Ok (f1, e1) ->
     freereg fs2 = freereg fs /\ LD W E fs (freereg fs) fs2 r (then1 (eval W E n lt ut x) (coerceW W (lt r))) /\ Grow fs fs2 nohole []).
  { intros c Cv Va Nn Q. destruct (exp2RK fs1 e) as [[fz ez] xz] eqn:Xk.
    assert (Any: (match ek e with VReloc _ | VUpval _ | VIndexed _ _ _ _ => True | _ => False end)).
    { pose proof (sh_kind _ _ _ _ S) as Kk. pose proof (sh_true _ _ _ _ S) as S1. pose proof (sh_false _ _ _ _ S) as S2. destruct (sh_num _ _ _ _ S Et Ef) as [S3 S4]. unfold vindexed_ty in Va. unfold vty in S1, S2. 
      destruct (ek e) eqn:Ke; try exact Logic.I; try contradiction; try (rewrite Va in *; cbn in *; first [discriminate (S1 eq_refl Ef)|discriminate (S2 eq_refl Et)|discriminate (S3 _ eq_refl)|discriminate (S4 _ eq_refl)]).
      (* VLocal *) destruct Kk as [Lr0 Sl]. destruct (gen_local W E _ _ _ _ _ G Ke) as [Hx _]. subst x. unfold vty in V. rewrite Ke in V. cbn [styp] in V. apply Nat.ltb_lt in Lr0. rewrite Lr0, Va in V.
      rewrite (Lc _ eq_refl (eq_sym V)) in Cv. discriminate Cv. }
    destruct (exp2RK_reloc W E _ _ _ _ _ _ _ _ P0 Lq I0 Et Ef Any Xk) as (-> & I1 & ->). injection Q as <- <-.
    pose proof (emit_conv W E _ _ _ _ c _ P0 Lq I1) as I2. 
    eapply (Done (then1 (eval W E n lt ut x) (unary W E (UAssert c)))).
    - assert (X': fst (exp2reg (freeexp (emit fz (Gen_model.Conv (freereg fs) c)) (mk (VNonreloc (freereg fs)) [] [] (conv_ty c))) (mk (VNonreloc (freereg fs)) [] [] (conv_ty c)) r) = fs2).
      { rewrite <- X. unfold exp2reg, discharge2reg, freeexp, dischargevars. cbn. destruct (r =? freereg fs); reflexivity. }
      eapply (store_ld n lt fs); [exact P0|exact A1|exact A3|exact Lr|exact A2|exact I2|intros p Q; discriminate Q|reflexivity|reflexivity|exact Dc|left; eexists; reflexivity|exact X'].
    - intros s. unfold Gen_opr.then1, coerceW, coerce. rewrite Cv. destruct (eval W E n lt ut x (reg s) (world s)) as [[v w]| | |]; cbn; auto. destruct (do_conv c v) as [v'| | |] eqn:Dv; cbn; auto.
      rewrite (conv_id c (conv_ty c)); [reflexivity|apply nothing_conv|]. assert (Hc: conv_ty c = lt r) by (destruct (conv_of_cases _ Dc) as [[_ Q]|(c' & Q & Hc)]; congruence). rewrite Hc. eapply (coerce_hast (lt r) v); [exact Dc|]. unfold coerce. rewrite Cv. exact Dv. }
  destruct (conv_of_cases _ Dc) as [[Ha Cn]|(c & Cv & Hc)].
  - apply Plain; [| |right; intros c Q; congruence]; rewrite Ha in Ck; unfold check_valid_store in Ck; destruct (ek e); cbn in Ck; injection Ck as <- <-; reflexivity.
  - assert (Ck': ((exists x, ek e = VNonreloc x) /\ f1 = fs1 /\ e1 = e) \/ ((match ek e with VNonreloc _ => False | _ => True end) /\
       (if nothing_to_do c (vindexed_ty e) then Ok (fs1, e) else if Z.eqb (vindexed_ty e) T_ANY then (let '(fs, ex, x) := exp2RK fs1 e in match x with R r => Ok (emit fs (Gen_model.Conv r c), ex) | K _ => UB end) else Err EType) = Ok (f1, e1))).
    { unfold check_valid_store in Ck. rewrite Hc in Ck. destruct (ek e) eqn:Ke; try (right; split; [exact Logic.I|]; destruct c; exact Ck).
      left. split; [eauto|]. destruct c; cbn in Ck; injection Ck as <- <-; auto. }
    destruct Ck' as [(Kx & Q1 & Q2)|[Nn Q]]; [apply Plain; auto|]. destruct (nothing_to_do c (vindexed_ty e)) eqn:Nd.
    + injection Q as Q1 Q2. apply Plain; auto. right. intros c' Hc'. assert (c' = c) as -> by congruence. apply vindexed_nothing. exact Nd.
    + destruct (Z.eqb_spec (vindexed_ty e) T_ANY) as [Va|]; [|discriminate Q]. eapply Conv; eauto.
Qed.
Lemma storelocal_ld n lt x fs fs1 e r fs2 : At n lt fs -> tame n lt ut x = true -> r < n -> declared (lt r) ->
  (lt r = T_ANY \/ (simple x = true /\ shape_of x <> Jump /\ forall q, x = ELocal q -> lt q <> T_ANY)) -> gen fs x = Ok (fs1, e) -> storelocal fs1 r e = Ok fs2 ->
  freereg fs2 = freereg fs /\ LD W E fs (freereg fs) fs2 r (then1 (eval W E n lt ut x) (coerceW W (lt r))) /\ Grow fs fs2 nohole [].
Proof.
  intros A Tm Lr Dc [Ta|(Sm & Sj & Lc)] G X; [|eapply storelocal_typed; eauto; intros q Q1 Q2; destruct (Lc q Q1 Q2)].
  destruct (gen_run _ _ _ _ _ _ A Tm G) as (I0 & V & S). destruct A as [P0 A1 A2 A3 A4 TO]. destruct (store_any W E n lt fs fs1 e _ r fs2 P0 A1 A3 Lr A2 I0 Ta X) as (Fr & H & G2).
  split; [exact Fr|]. split; [|exact G2]. eapply ld_ext; [|exact H]. intros s _. apply coerce_none. rewrite Ta. reflexivity.
Qed.

(* an expression whose value is in the next register *)
Lemma inv_ld fs b0 fs1 ty rs : nactvar fs <= b0 -> INV fs b0 fs1 (mk (VNonreloc b0) [] [] ty) rs -> LD W E fs b0 fs1 b0 rs /\ Grow fs fs1 nohole [] /\ freereg fs1 = S b0.
Proof.
  intros L I1. destruct (operand_g W E fs b0 fs1 _ _ (R b0) ty L I1 eq_refl) as (H & Gr & F & _). split; [|split; [exact Gr|]].
  - intros P X cf0 s0 O A. eapply res_imp; [|apply (H P X cf0 s0 O A)]. intros c (s & v & Ke & Ar & Ev & [Rv _]). cbn in Rv. injection Rv as <-. exists s. split; [exact Ar|]. split; [exact Ev|]. intros q Lq _. apply Ke. exact Lq.
  - cbn in F. unfold tmp in F. destruct (Nat.ltb_spec b0 (nactvar fs)); lia.
Qed.
Lemma call_inv n lt f l fs fs1 e : At n lt fs -> tame n lt ut (ECall f l) = true -> gen fs (ECall f l) = Ok (fs1, e) -> e = mk (VNonreloc (freereg fs)) [] [] T_ANY.
Proof.
  intros A Tm G. cbn [Gen_model.gen] in G. cbn [tame] in Tm. apply andb_prop in Tm as [T1 _]. bo G G1. destruct (gen_run _ _ _ _ _ _ A T1 G1) as (I0 & _ & _). destruct A as [P0 A1 A2 A3 A4 TO].
  destruct (exp2nextreg f0 e0) as [f2 e2] eqn:X. assert (Lq: nactvar fs <= freereg fs) by lia. destruct (exp2nextreg_inv W E _ _ _ _ _ _ _ P0 Lq I0 X) as (_ & -> & _). bo G G2. injection G as _ <-. reflexivity.
Qed.
Lemma vindexed_hast e t v : within (vindexed_ty e) t = true -> t <> T_ANY -> declared t -> hast (vty e) v -> hast t v.
Proof.
  intros Wi N D H. destruct (conv_of_cases _ D) as [[Q _]|(c & _ & ->)]; [contradiction|]. unfold vindexed_ty, vty in *. destruct (ek e); try (eapply within_spec; eauto; fail).
  destruct (Z.eqb_spec (ety e) T_IARR) as [Q|]; [rewrite Q in H; change (elements T_IARR) with T_INT in H; eapply within_spec; eauto|].
  destruct (Z.eqb_spec (ety e) T_FARR) as [Q|]; [rewrite Q in H; change (elements T_FARR) with T_FLT in H; eapply within_spec; eauto|]. destruct c; discriminate Wi.
Qed.
Lemma nextreg_same fs b ty ty' : fst (exp2nextreg fs (mk (VNonreloc b) [] [] ty)) = fst (exp2nextreg fs (mk (VNonreloc b) [] [] ty')).
Proof. unfold exp2nextreg, exp2reg, discharge2reg, freeexp, dischargevars. cbn. reflexivity. Qed.
Lemma local_ld n lt x t fs fs1 : At n lt fs -> freereg fs = n -> tame n lt ut x = true -> declared t -> localstat (fmod E) (fpow E) fs t x = Ok fs1 ->
  exists fs2, fs1 = declare fs2 t /\ LD W E fs n fs2 n (then1 (eval W E n lt ut x) (coerceW W t)) /\ Grow fs fs2 nohole [] /\ freereg fs2 = S n.
Proof.
  intros A Fr Tm D L. unfold localstat in L. bo L G. destruct (gen_run _ _ _ _ _ _ A Tm G) as (I0 & V & _).
  assert (Ci: is_call x = true -> e = mk (VNonreloc n) [] [] T_ANY).
  { intros Q. destruct x; try discriminate Q. rewrite <- Fr. eapply call_inv; eauto. }
  destruct A as [P0 A1 A2 A3 A4 TO]. rewrite Fr in I0. assert (Ln: nactvar fs <= n) by lia.
  destruct (typecheck f t (is_call x) e) as [[f1 e1]| | |] eqn:Ty; cbn [bind] in L; try discriminate L. okeq L. exists (fst (exp2nextreg f1 e1)). split; [auto|].
  assert (Id: forall rs fsx, LD W E fs n fsx n rs -> (forall s v w, okst W fs s -> rs (reg s) (world s) = Ok (v, w) -> coerce t v = Ok v) -> LD W E fs n fsx n (then1 rs (coerceW W t))).
  { intros rs fsx H Q. eapply ld_ext; [|exact H]. intros s O. unfold Gen_opr.then1, coerceW. destruct (rs (reg s) (world s)) as [[v w]| | |] eqn:Er; cbn; auto. rewrite (Q s v w O Er). reflexivity. }
  assert (Cv: forall c rs fsx, conv_of t = Some c -> LD W E fs n fsx n (then1 rs (unary W E (UAssert c))) -> LD W E fs n fsx n (then1 rs (coerceW W t))).
  { intros c rs fsx Hc H. eapply ld_ext; [|exact H]. intros s _. apply (coerce_some W E). exact Hc. }
  (* a value in the register that is converted there *)
  assert (Here: forall fsx rs ty, INV fs n fsx (mk (VNonreloc n) [] [] ty) rs -> exists ty', INV fs n (fst (exp2nextreg (typecoersion fsx n t) (mk (VNonreloc n) [] [] ty))) (mk (VNonreloc n) [] [] ty') (match conv_of t with Some c => then1 rs (unary W E (UAssert c)) | None => rs end)).
  { intros fsx rs ty Ix. unfold typecoersion. destruct (conv_of t) as [c|].
    - pose proof (emit_conv W E _ _ _ _ c _ P0 Ln Ix) as I2. rewrite (nextreg_same _ _ ty (conv_ty c)). destruct (exp2nextreg (emit fsx (Conv n c)) (mk (VNonreloc n) [] [] (conv_ty c))) as [f5 e5] eqn:X5.
      destruct (exp2nextreg_inv W E _ _ _ _ _ _ _ P0 Ln I2 X5) as (I3 & -> & _). cbn [fst]. eauto.
    - destruct (exp2nextreg fsx (mk (VNonreloc n) [] [] ty)) as [f5 e5] eqn:X5. destruct (exp2nextreg_inv W E _ _ _ _ _ _ _ P0 Ln Ix X5) as (I3 & -> & _). eauto. }
  assert (Done: forall fsx ty, INV fs n fsx (mk (VNonreloc n) [] [] ty) (match conv_of t with Some c => then1 (eval W E n lt ut x) (unary W E (UAssert c)) | None => eval W E n lt ut x end) ->
    LD W E fs n fsx n (then1 (eval W E n lt ut x) (coerceW W t)) /\ Grow fs fsx nohole [] /\ freereg fsx = S n).
  { intros fsx ty Ix. destruct (inv_ld _ _ _ _ _ Ln Ix) as (H & Gr & Ff). split; [|auto]. destruct (conv_of t) as [c|] eqn:Hc; [eapply Cv; eauto|].
    apply Id; [exact H|]. intros s v w _ _. unfold coerce. rewrite Hc. reflexivity. }
  unfold typecheck in Ty. cbv zeta in Ty.
  assert (Con: (let '(fs3, e3) := exp2nextreg f e in Ok (typecoersion fs3 (reg_of e3) t, e3)) = Ok (f1, e1) -> LD W E fs n (fst (exp2nextreg f1 e1)) n (then1 (eval W E n lt ut x) (coerceW W t)) /\ Grow fs (fst (exp2nextreg f1 e1)) nohole [] /\ freereg (fst (exp2nextreg f1 e1)) = S n).
  { intros Q. destruct (exp2nextreg f e) as [f3 e3] eqn:X3. destruct (exp2nextreg_inv W E _ _ _ _ _ _ _ P0 Ln I0 X3) as (I3 & -> & _). injection Q as <- <-. cbn [reg_of ek]. destruct (Here _ _ _ I3) as [ty' H]. exact (Done _ _ H). }
  destruct (within (vindexed_ty e) t) eqn:Wi.
  - injection Ty as <- <-. destruct (exp2nextreg f e) as [f3 e3] eqn:X3. destruct (exp2nextreg_inv W E _ _ _ _ _ _ _ P0 Ln I0 X3) as (I3 & -> & _). cbn [fst].
    destruct (inv_ld _ _ _ _ _ Ln I3) as (H & Gr & Ff). split; [|auto]. apply Id; [exact H|]. intros s v w O Er. pose proof (i_ty _ _ _ _ _ _ _ I0 s O v w Er) as Hv.
    unfold coerce. destruct (conv_of t) as [c|] eqn:Hc; [|reflexivity]. destruct (conv_of_cases _ D) as [[_ Q]|(c' & Q & Ht)]; [congruence|]. assert (c' = c) as -> by congruence.
    apply (conv_id c (conv_ty c)); [apply nothing_conv|]. rewrite <- Ht. eapply vindexed_hast; eauto. rewrite Ht. destruct c; discriminate.
  - destruct (is_call x) eqn:Ic.
    + specialize (Ci eq_refl). destruct (conv_of t) as [c|] eqn:Hc.
      * injection Ty as <- <-. rewrite Ci in I0 |- *. cbn [reg_of ek]. destruct (Here _ _ _ I0) as [ty' H]. exact (Done _ _ H).
      * destruct (Z.eqb _ _); [auto|discriminate Ty].
    + destruct (_ && _); [discriminate Ty|]. destruct (_ || _); [auto|]. destruct (Z.eqb _ _); [auto|discriminate Ty].
Qed.
End expr.
