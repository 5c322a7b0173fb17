(* The negation of an expression. *)
Require Import ZArith List Bool Arith Lia.
From Verif Require Import Base Float_model Op_model Op_spec Op_proofs Gen_model Gen_spec Gen_facts Gen_run Gen_inv Gen_ops Gen_put Gen_cond.
Import ListNotations.
Local Open Scope nat_scope.

Definition rv2 (c : list instr) (t f : list nat) : list instr := removevalues (removevalues c t) f.
Lemma rv2_spec c t f : (forall j, 0 < cnt (t ++ f) j -> isjmp c j) ->
  length (rv2 c t f) = length c /\
  forall p, nth_error (rv2 c t f) p = if 0 <? cnt (t ++ f) (S p) then match nth_error c p with Some (TestSet _ b cc) => Some (Test b cc) | x => x end else nth_error c p.
Proof.
  intros J. assert (J1: forall j, 0 < cnt t j -> isjmp c j) by (intros j H; apply J; rewrite cnt_app; lia). destruct (removevalues_spec c t J1) as [L1 N1].
  assert (J2: forall j, 0 < cnt f j -> isjmp (removevalues c t) j).
  { intros j H. assert (Hj: isjmp c j) by (apply J; rewrite cnt_app; lia). unfold isjmp in *. rewrite N1, Hj. destruct (_ <? _); reflexivity. }
  destruct (removevalues_spec (removevalues c t) f J2) as [L2 N2]. unfold rv2. split; [congruence|]. intros p. rewrite N2, N1, cnt_app.
  destruct (Nat.ltb_spec 0 (cnt f (S p))), (Nat.ltb_spec 0 (cnt t (S p))), (Nat.ltb_spec 0 (cnt t (S p) + cnt f (S p))); try lia; try reflexivity.
  destruct (nth_error c p) as [[]|]; reflexivity.
Qed.
Lemma rv2_refines h c t f : (forall j, 0 < cnt (t ++ f) j -> jok c j) -> refines h c h (rv2 c t f).
Proof.
  intros J. destruct (rv2_spec c t f (fun j H => proj1 (J j H))) as [_ N]. intros p i H Nh. split; [exact Nh|]. rewrite N, H. destruct (Nat.ltb_spec 0 (cnt (t ++ f) (S p))).
  - destruct i; try (eexists; split; [reflexivity|apply compat_refl]). eexists; split; [reflexivity|]. destruct (J (S p) H0) as [_ Ja]. rewrite (Ja p a b c0 eq_refl H). right. left. reflexivity.
  - exists i. split; [reflexivity|apply compat_refl].
Qed.
Lemma rv2_tset c t f j : (forall j, 0 < cnt (t ++ f) j -> isjmp c j) -> tset (rv2 c t f) j = if 0 <? cnt (t ++ f) j then None else tset c j.
Proof.
  intros J. destruct (rv2_spec c t f J) as [_ N]. destruct j as [|q]; [unfold tset; destruct (0 <? cnt (t ++ f) 0); reflexivity|]. cbn [tset]. rewrite N. destruct (0 <? _); [|reflexivity]. destruct (nth_error c q) as [[]|]; reflexivity.
Qed.
Lemma rv2_nth c t f p i : (forall j, 0 < cnt (t ++ f) j -> isjmp c j) -> nth_error c p = Some i -> (forall a b cc, i <> TestSet a b cc) -> nth_error (rv2 c t f) p = Some i.
Proof.
  intros J H Ni. destruct (rv2_spec c t f J) as [_ N]. rewrite N, H. destruct (0 <? _); [|reflexivity]. destruct i; try reflexivity. exfalso. eapply Ni. reflexivity.
Qed.
Lemma rv2_notts c t f p : (forall j, 0 < cnt (t ++ f) j -> isjmp c j) -> notts c p -> notts (rv2 c t f) p.
Proof. intros J H a b cc. destruct (rv2_spec c t f J) as [_ N]. rewrite N. destruct (0 <? _); [|apply H]. unfold notts in H. destruct (nth_error c p) as [[]|]; try discriminate. Qed.
Lemma grow_rv fs0 fs h l t f : Pre fs0 -> Grow fs0 fs h l -> (forall j, 0 < cnt (t ++ f) j -> 0 < cnt l j) -> Grow fs0 (with_code fs (rv2 (code fs) t f)) h l.
Proof.
  intros P0 G Hl. pose proof G as [A1 A2 A3 A4 A5 A6 A7 A8 A9 A10 A11 A12].
  assert (J: forall j, 0 < cnt (t ++ f) j -> jok (code fs) j) by (intros j H; apply A11; rewrite cnt_app; apply Hl in H; lia).
  assert (J': forall j, 0 < cnt (t ++ f) j -> isjmp (code fs) j) by (intros j H; apply J; exact H).
  destruct (rv2_spec (code fs) t f J') as [Ln N].
  split; auto.
  - unfold pc in *. cbn [code with_code]. lia.
  - eapply refines_trans; [exact A7|]. apply rv2_refines. exact J.
  - intros p Hp C0 C1. cbn [code with_code]. rewrite N. rewrite (A8 p Hp C0 C1). destruct (Nat.ltb_spec 0 (cnt (t ++ f) (S p))) as [H|H]; [|reflexivity].
    assert (Nt: notts (code fs0) p).
    { destruct (A12 (S p)) as [Hc|Hc]; [rewrite cnt_app; apply Hl in H; lia|destruct C1 as [C1|C1]; [lia|exact C1]|]. apply (p_last _ P0). unfold pc in *. lia. }
    unfold notts in Nt. destruct (nth_error (code fs0) p) as [[]|]; try reflexivity. exfalso. eapply Nt. reflexivity.
  - intros q Hq. cbn [code with_code] in *. apply rv2_notts; [exact J'|]. apply A9. lia.
  - intros j Hj. cbn [code with_code jpc] in *. destruct (A11 j Hj) as [B1 B2]. split.
    + unfold isjmp. rewrite (rv2_nth (code fs) t f j (Jmp None)); auto. discriminate.
    + intros q a b cc Eq Hn. rewrite N in Hn. destruct (0 <? _); [|eapply B2; eauto]. destruct (nth_error (code fs) q) as [[]|]; discriminate.
Qed.
Section nots.
Variable W : Type.
Variable E : env W.
Notation step := (step W E).
Notation config := (config W).
Notation state := (state W).
Notation Res := (Res W E).
Notation steps := (steps W E).
Notation INV := (INV W E).
Notation HC := (HC W E).
Notation TY := (TY W).
Notation result := (result W).
Definition neg (o : outcome (val * W)) : outcome (val * W) := bind o (fun '(v, w) => Ok (Bool (negb (truthy v)), w)).
Definition rnot (r : result) : result := fun l w => neg (r l w).
Lemma same_neg (x : outcome config) o : same x o -> same x (neg o).
Proof. unfold neg. apply same_bind. Qed.
Lemma neg_exit h fs fs2 t f P cf s o l tv : ext h fs2 P -> code fs2 = rv2 (code fs) t f -> (forall j, 0 < cnt (t ++ f) j -> isjmp (code fs) j) ->
  (forall j, 0 < cnt l j -> 0 < cnt (t ++ f) j) -> (forall q, 0 < cnt l (S q) -> ~ h q) ->
  exitJ W (code fs) l tv cf s o -> exists cf', steps P cf cf' /\ exitJ W (code fs2) l (negb tv) cf' s (neg o).
Proof.
  intros X Ec J Hl Nh (j & Hj & A & V). assert (Tj: tset (code fs2) j = None) by (rewrite Ec, rv2_tset by exact J; specialize (Hl j Hj); destruct (Nat.ltb_spec 0 (cnt (t ++ f) j)); [reflexivity|lia]).
  exists (j, s). split.
  - unfold atj in A. destruct (tset (code fs) j) as [[b cc]|] eqn:Ts.
    + destruct A as [-> A]. destruct (tset_nth _ _ _ _ Ts) as (q & a & -> & Nq). cbn [pred].
      assert (N2: nth_error (code fs2) q = Some (Test b cc)) by (rewrite Ec; destruct (rv2_spec (code fs) t f J) as [_ N]; rewrite N, Nq; specialize (Hl _ Hj); destruct (Nat.ltb_spec 0 (cnt (t ++ f) (S q))); [reflexivity|lia]).
      apply steps_one. unfold Gen_model.step. rewrite (text_fixed _ _ _ _ _ X N2 Logic.I (Nh q Hj)), A, eqb_reflx. reflexivity.
    + subst cf. constructor.
  - exists j. split; [exact Hj|]. unfold atj. rewrite Tj. split; [reflexivity|]. destruct (tset (code fs) j) as [[b cc]|] eqn:Ts.
    + unfold atj in A. rewrite Ts in A. destruct A as [_ A], V as [-> ->]. unfold neg. cbn [bind]. rewrite A. reflexivity.
    + rewrite V. unfold neg. cbn [bind]. destruct tv; reflexivity.
Qed.
Lemma not_inv fs0 b0 fsm em r ty : Pre fs0 -> Grow fs0 fsm (hole em) (pend em) -> kindok (nactvar fs0) b0 fsm em ->
  (forall P, ext (hole em) fsm P -> forall cf0 s0, okst W fs0 s0 -> arrive W fs0 cf0 s0 ->
   Res P cf0 (r (reg s0) (world s0)) (fun cf => exists s, keep W b0 s0 s /\ (exitF W E P fsm em cf s (neg (r (reg s0) (world s0))) \/
     exitJ W (code fsm) (et em) true cf s (r (reg s0) (world s0)) \/ exitJ W (code fsm) (ef em) false cf s (r (reg s0) (world s0))))) ->
  TY fs0 ty (rnot r) -> (forall u t k kt, ek em <> VIndexed u t k kt) ->
  INV fs0 b0 (with_code fsm (rv2 (code fsm) (et em) (ef em))) (mk (ek em) (ef em) (et em) ty) (rnot r).
Proof.
  intros P0 G Ki C T Ni. set (fs2 := with_code fsm (rv2 (code fsm) (et em) (ef em))). set (e2 := mk (ek em) (ef em) (et em) ty).
  assert (Jk: forall j, 0 < cnt (et em ++ ef em) j -> jok (code fsm) j) by (intros j H; apply (g_jok _ _ _ _ G); unfold pend; rewrite !cnt_app in *; lia).
  assert (J: forall j, 0 < cnt (et em ++ ef em) j -> isjmp (code fsm) j) by (intros j H; apply Jk; exact H).
  assert (G2: Grow fs0 fs2 (hole em) (pend em)) by (apply grow_rv; auto; intros j H; unfold pend; rewrite !cnt_app in *; lia).
  assert (Pc: pc fs2 = pc fsm) by (unfold pc, fs2; cbn [code with_code]; apply rv2_spec; exact J).
  assert (Nth: forall p i, nth_error (code fsm) p = Some i -> (forall a b cc, i <> TestSet a b cc) -> nth_error (code fs2) p = Some i) by (intros p i H N; apply rv2_nth; auto).
  split.
  - eapply grow_cnt; [|exact G2]. intros j. unfold pend, vj, e2. cbn [et ef ek]. rewrite !cnt_app. lia.
  - unfold kindok in *. unfold e2. cbn [ek]. destruct (ek em) eqn:Ke; auto.
    + rename pc into pc0. destruct Ki as (K1 & K2 & K3 & K4 & op & K5 & K6). rewrite Pc. repeat split; auto.
      * intros q Hq a b cc. rewrite firstn_length in Hq. assert (Lq: S q = pc0) by (unfold pc in K1, Pc; lia). 
        intros Hn. apply (rv2_notts (code fsm) (et em) (ef em) q J) with (a := a) (b := b) (cc := cc).
        -- intros a' b' cc' Hn'. apply (K4 q) with (a := a') (b := b') (cc := cc').
           ++ rewrite firstn_length. unfold pc in K1. lia.
           ++ rewrite <- Hn'. rewrite <- (firstn_skipn pc0 (code fsm)) at 2. rewrite nth_app1; [reflexivity|]. rewrite firstn_length. unfold pc in K1. lia.
        -- rewrite <- Hn. fold (code fs2). change (rv2 (code fsm) (et em) (ef em)) with (code fs2). rewrite <- (firstn_skipn pc0 (code fs2)) at 1. rewrite nth_app1; [reflexivity|]. rewrite firstn_length. unfold pc in K1, Pc. lia.
      * exists op. split; [apply Nth; [exact K5|discriminate]|exact K6].
    + destruct Ki as (K1 & K2 & K3 & q & o & c & x & y & K4 & K5). rewrite Pc. repeat split; auto. exists q, o, c, x, y. split; [exact K4|]. apply Nth; [exact K5|discriminate].
  - intros P X cf0 s0 O A. assert (Hh: hole e2 = hole em) by reflexivity. rewrite Hh in X.
    assert (X': ext (hole em) fsm P) by (eapply ext_refines; [exact X|apply rv2_refines; exact Jk|exists []; rewrite app_nil_r; reflexivity]).
    assert (Nh: forall q, 0 < cnt (et em ++ ef em) (S q) -> ~ hole em q).
    { intros q Hq. unfold hole, kindok in *. destruct (ek em) eqn:Ke; auto.
      - intros ->. destruct Ki as (K1 & _). apply Jk in Hq. apply jok_len in Hq. unfold Gen_model.pc in K1. lia.
      - intros Hqp. pose proof (g_uniq _ _ _ _ G (S q)) as U. unfold pend, vj in U. rewrite Ke, Hqp, !cnt_app, cnt_self in U. rewrite Hqp, cnt_app in Hq. lia. }
    eapply res_bind; [apply (C P X' cf0 s0 O A)|intros x; apply same_neg|]. intros cf (s & Kp & [Hx|[Hj|Hj]]).
    + apply res_ret. exists s. split; [exact Kp|left]. unfold rnot. unfold exitF in *. unfold e2. cbn [ek].
      assert (Arr: arrive W fsm cf s -> arrive W fs2 cf s).
      { intros [->|(j & H1 & H2)]; [left; rewrite Pc; reflexivity|]. right. exists j. split; [exact H1|]. unfold atj in *. assert (Tj: tset (code fs2) j = tset (code fsm) j).
        { unfold fs2. cbn [code with_code]. rewrite rv2_tset by exact J. destruct (Nat.ltb_spec 0 (cnt (et em ++ ef em) j)); [|reflexivity]. pose proof (g_uniq _ _ _ _ G j) as U. unfold pend in U. rewrite !cnt_app in *. lia. }
        rewrite Tj. exact H2. }
      unfold kindok in Ki. unfold valF in *. destruct (ek em) eqn:Ke; try (destruct Hx as [Ha Hv]; split; [apply Arr; exact Ha|exact Hv]).
      * exfalso. eapply Ni. reflexivity.
      * destruct Hx as (-> & op & N1 & Va). split; [reflexivity|]. exists op. split; [apply Nth; [exact N1|discriminate]|exact Va].
      * destruct Hx as (-> & op & c & x & y & N1 & Va). split; [reflexivity|]. exists op, c, x, y. split; [apply Nth; [exact N1|discriminate]|exact Va].
    + assert (HL: forall j, 0 < cnt (et em) j -> 0 < cnt (et em ++ ef em) j) by (intros j H; rewrite cnt_app; lia).
      destruct (neg_exit (hole em) fsm fs2 (et em) (ef em) P cf s _ (et em) true X eq_refl J HL (fun q H => Nh q (HL _ H)) Hj) as (cf' & St & Ex).
      eapply res_steps; [exact St|]. apply res_ret. exists s. split; [exact Kp|]. right. right. exact Ex.
    + assert (HL: forall j, 0 < cnt (ef em) j -> 0 < cnt (et em ++ ef em) j) by (intros j H; rewrite cnt_app; lia).
      destruct (neg_exit (hole em) fsm fs2 (et em) (ef em) P cf s _ (ef em) false X eq_refl J HL (fun q H => Nh q (HL _ H)) Hj) as (cf' & St & Ex).
      eapply res_steps; [exact St|]. apply res_ret. exists s. split; [exact Kp|]. right. left. exact Ex.
  - unfold vty, e2. cbn [ek ety]. destruct (ek em) eqn:Ke; auto. exfalso. eapply Ni. reflexivity.
Qed.
Lemma not_ty_ok fs0 t r : TY fs0 t r -> TY fs0 (not_ty t) (rnot r).
Proof.
  intros T s0 O v w H. unfold rnot, neg in H. destruct (r (reg s0) (world s0)) as [[v0 w0]|er| |] eqn:R; try discriminate. cbn in H. injection H as <- <-.
  pose proof (T s0 O v0 w0 R) as Hv. unfold not_ty. apply hast_lor. destruct (truthy v0) eqn:Tv; cbn [negb].
  - left. destruct (none_of t T_TRUISH) eqn:N; [|reflexivity]. rewrite (falsish_ty _ _ N Hv) in Tv. discriminate.
  - right. destruct (none_of t T_FALSISH) eqn:N; [|reflexivity]. rewrite (truish_ty _ _ N Hv) in Tv. discriminate.
Qed.
Lemma codenot_inv fs0 b0 fs e r fs' e' : Pre fs0 -> nactvar fs0 <= b0 -> INV fs0 b0 fs e r ->
  (forall k, ek e = VK k -> exists v, nth_error (ks fs) k = Some v /\ truthy v = true) ->
  codenot fs e = (fs', e') ->
  INV fs0 b0 fs' e' (rnot r) /\ et e' = ef e /\ ef e' = et e /\ ety e' = not_ty (vty e) /\
  match ek e' with
  | VTrue => lits (ek e) false | VFalse => lits (ek e) true | VJmp p => ek e = VJmp p | VReloc _ => ~ lits (ek e) true /\ ~ lits (ek e) false /\ (forall p, ek e <> VJmp p)
  | _ => False
  end.
Proof.
  intros P0 L I0 Hk. unfold codenot. destruct (dischargevars fs e) as [fsx ex] eqn:Dx.
  destruct (dischargevars_inv W E fs0 b0 fs e r fsx ex P0 I0 Dx) as (I1 & D1 & Ty & Et & Ef).
  assert (He: ety ex = vty e) by (rewrite <- Ty; unfold vty; destruct (ek ex); cbn in D1; try contradiction; reflexivity).
  assert (Hk': forall k, ek ex = VK k -> exists v, nth_error (ks fsx) k = Some v /\ truthy v = true).
  { destruct (dv_cases _ _ _ _ Dx) as [[-> ->]|[(_ & x & K1 & K2)|[[p K2] _]]]; auto; intros k; rewrite K2; discriminate. }
  assert (Hl: forall tv, lits (ek ex) tv -> lits (ek e) tv).
  { intros tv. destruct (dv_cases _ _ _ _ Dx) as [[_ ->]|[(_ & x & K1 & K2)|[[p K2] _]]]; auto; rewrite K2; intros []. }
  assert (Hj: forall p, ek ex = VJmp p -> ek e = VJmp p).
  { intros p. destruct (dv_cases _ _ _ _ Dx) as [[_ ->]|[(_ & x & K1 & K2)|[[q K2] _]]]; auto; rewrite K2; discriminate. }
  assert (Hn: ~ lits (ek ex) true -> ~ lits (ek ex) false -> (forall p, ek ex <> VJmp p) -> ~ lits (ek e) true /\ ~ lits (ek e) false /\ (forall p, ek e <> VJmp p)).
  { destruct (dv_cases _ _ _ _ Dx) as [[_ ->]|[(_ & x & K1 & K2)|[[q K2] Te]]]; auto.
    - intros _ _ _. rewrite K1. repeat split; try discriminate; intros [].
    - intros _ _ _. specialize (Te 0). unfold temporary in Te. destruct (ek e); try contradiction; repeat split; try discriminate; intros []. }
  pose proof (i_ty _ _ _ _ _ _ _ I1) as T1. rewrite Ty in T1. apply not_ty_ok in T1.
  (* the value is known *)
  assert (Lit: forall tv, lits (ek ex) (negb tv) -> let em := with_k ex (if tv : bool then VTrue else VFalse) in
     INV fs0 b0 (with_code fsx (rv2 (code fsx) (et em) (ef em))) (mk (ek em) (ef em) (et em) (not_ty (vty e))) (rnot r)).
  { intros tv Li em. assert (A: arrival (ek ex)) by (destruct (ek ex); cbn in Li; try contradiction; exact Logic.I).
    pose proof (omitted W E fs0 b0 fsx ex r (negb tv) I1 A D1 (or_introl (conj Li Hk'))) as Hc. pose proof (inv_grow _ _ _ _ _ _ _ I1 A) as G.
    apply not_inv; auto.
    - eapply grow_cnt; [|replace (hole em) with nohole; [exact G|]].
      + intros j. unfold pend, vj, em. cbn [ek with_k et ef]. destruct tv; rewrite !cnt_app; cbn; lia.
      + unfold hole, em. cbn [ek with_k]. destruct tv; reflexivity.
    - pose proof (i_kind _ _ _ _ _ _ _ I1) as K. unfold kindok in *. unfold em. cbn [ek with_k]. destruct (ek ex); cbn in Li; try contradiction; destruct tv; intuition.
    - intros P X cf0 s0 O Ar. assert (X': ext nohole fsx P) by (eapply ext_hole; [|exact X]; intros p; unfold hole, em; cbn [ek with_k]; destruct tv; intros []).
      eapply res_imp; [|apply (Hc P X' cf0 s0 O Ar)]. intros cf (s & Kp & [[Ha Hv]|Hjs]); exists s; (split; [exact Kp|]); [left|right; exact Hjs].
      destruct Hv as (v & Hv & Tv). unfold exitF, valF, em. cbn [ek with_k]. rewrite Hv. unfold neg. cbn [bind]. rewrite Tv, negb_involutive. destruct tv; auto.
    - intros u t k kt. unfold em. cbn [ek with_k]. destruct tv; discriminate. }
  assert (Fin: forall em fsm, INV fs0 b0 (with_code fsm (rv2 (code fsm) (et em) (ef em))) (mk (ek em) (ef em) (et em) (not_ty (vty e))) (rnot r) -> et em = et e -> ef em = ef e -> ety em = vty e ->
    (with_code fsm (removevalues (removevalues (code fsm) (et em)) (ef em)), mk (ek em) (ef em) (et em) (Z.lor (if none_of (ety em) T_TRUISH then 0 else T_FALSE) (if none_of (ety em) T_FALSISH then 0 else T_TRUE))) = (fs', e') ->
    INV fs0 b0 fs' e' (rnot r) /\ et e' = ef e /\ ef e' = et e /\ ety e' = not_ty (vty e) /\ ek e' = ek em).
  { intros em fsm I2 E1 E2 E3 H. injection H as <- <-. rewrite E3. split; [exact I2|]. cbn [et ef ety ek]. auto. }
  (* it has to be computed *)
  assert (Comp: (forall p, ek ex <> VJmp p) -> ~ lits (ek ex) true -> ~ lits (ek ex) false ->
    (let '(fs, e) := (let '(fs, e) := discharge2anyreg fsx ex in let fs := freeexp fs e in (emit fs (Val None (ONot (reg_of e))), with_k e (VReloc (pc fs)))) in
     (with_code fs (removevalues (removevalues (code fs) (et e)) (ef e)), mk (ek e) (ef e) (et e) (Z.lor (if none_of (ety e) T_TRUISH then 0 else T_FALSE) (if none_of (ety e) T_FALSISH then 0 else T_TRUE)))) = (fs', e') ->
    INV fs0 b0 fs' e' (rnot r) /\ et e' = ef e /\ ef e' = et e /\ ety e' = not_ty (vty e) /\ match ek e' with
  | VTrue => lits (ek e) false | VFalse => lits (ek e) true | VJmp p => ek e = VJmp p | VReloc _ => ~ lits (ek e) true /\ ~ lits (ek e) false /\ (forall p, ek e <> VJmp p)
  | _ => False end).
  { intros Nj Nt Nf. destruct (discharge2anyreg fsx ex) as [fsy ey] eqn:Dy. destruct (d2any_inv W E fs0 b0 fsx ex r fsy ey P0 L I1 D1 Nj Dy) as (I2 & x & -> & _).
    destruct (freeexp_base (nactvar fs0) b0 fsy (with_k ex (VNonreloc x)) L (g_nact _ _ _ _ (i_grow _ _ _ _ _ _ _ I2)) (i_kind _ _ _ _ _ _ _ I2) Logic.I) as [Fb Sf].
    cbv zeta. set (fsz := freeexp fsy (with_k ex (VNonreloc x))) in *. cbn [reg_of ek with_k].
    pose proof (grow_same _ _ _ _ _ Sf (inv_grow _ _ _ _ _ _ _ I2 Logic.I)) as G. pose proof (hc_same _ _ _ _ _ _ _ _ _ _ Sf (inv_hc _ _ _ _ _ _ _ I2 Logic.I)) as Hc. cbn [et ef with_k] in G, Hc.
    pose proof (grow_pre _ _ _ _ G) as P1. set (em := with_k (with_k ex (VNonreloc x)) (VReloc (pc fsz))). intros H.
    destruct (grow_tset_emit fs0 fsz (et ex) (ef ex) (Val None (ONot x)) G) as [Tt Tf].
    assert (Hh: forall p, hole em p -> pc fsz <= p) by (intros p Hp; unfold hole, em in Hp; cbn [ek with_k] in Hp; lia).
    destruct (Fin em (emit fsz (Val None (ONot x)))) as (Q1 & Q2 & Q3 & Q4 & Q5); auto.
    - apply not_inv; auto.
      + unfold pend, vj, em. cbn [et ef ek with_k]. rewrite app_nil_r. apply grow_emit; auto. discriminate.
      + unfold kindok, em. cbn [ek with_k]. rewrite pc_emit by exact P1. split; [reflexivity|]. split; [reflexivity|]. split; [exact Fb|]. split; [apply (lastok_firstn fs0 fsz nohole (et ex ++ ef ex)); auto|].
        exists (ONot x). split; [apply emit_nth; exact P1|discriminate].
      + intros P X cf0 s0 O A. assert (X': ext nohole fsz P) by (eapply ext_refines; [exact X|apply refines_emit; [exact P1|exact Hh]|exists []; rewrite app_nil_r; reflexivity]).
        eapply res_bind; [apply (Hc P X' cf0 s0 O A)|auto|]. intros cf (s & Kp & [[Ar Va]|[J|J]]).
        * eapply res_steps; [eapply emit_run; eauto|]. apply res_ret. exists s. split; [exact Kp|left]. unfold exitF, em. cbn [ek with_k]. split; [reflexivity|].
          exists (ONot x). split; [apply emit_nth; exact P1|]. left. unfold valF in Va. cbn [ek with_k] in Va. rewrite Va. reflexivity.
        * apply res_ret. exists s. split; [exact Kp|]. right. left. eapply exitJ_tset; [exact Tt|exact J].
        * apply res_ret. exists s. split; [exact Kp|]. right. right. eapply exitJ_tset; [exact Tf|exact J].
      + intros u t k kt. unfold em. cbn [ek with_k]. discriminate.
    - split; [exact Q1|]. split; [exact Q2|]. split; [exact Q3|]. split; [exact Q4|]. rewrite Q5. unfold em. cbn [ek with_k]. auto. }
  pose proof (fun p => negate W E fs0 b0 fsx ex r p I1) as Ng.
  destruct (ek ex) eqn:Ke; cbn in D1; try contradiction.
  1,3: (intros H; destruct (Fin (with_k ex VTrue) fsx (Lit true eq_refl) Et Ef He H) as (Q1 & Q2 & Q3 & Q4 & Q5); split; [exact Q1|]; split; [exact Q2|]; split; [exact Q3|]; split; [exact Q4|]; rewrite Q5; cbn [ek with_k]; apply Hl; exact eq_refl).
  1,2,3,4: (intros H; destruct (Fin (with_k ex VFalse) fsx (Lit false eq_refl) Et Ef He H) as (Q1 & Q2 & Q3 & Q4 & Q5); split; [exact Q1|]; split; [exact Q2|]; split; [exact Q3|]; split; [exact Q4|]; rewrite Q5; cbn [ek with_k]; apply Hl; exact eq_refl).
  - apply Comp; [discriminate|intros []..].
  - apply Comp; [discriminate|intros []..].
  - rename pc into p. destruct (Ng p eq_refl) as (q & op & c & x & y & -> & Nq & Nc & G). intros H.
    destruct (Fin ex (with_code fsx (negatecondition (code fsx) (S q)))) as (Q1 & Q2 & Q3 & Q4 & Q5); auto.
    + apply not_inv; auto.
      * pose proof (i_kind _ _ _ _ _ _ _ I1) as K. unfold kindok in *. rewrite Ke in *. destruct K as (K1 & K2 & K3 & _). repeat split; auto.
        -- unfold pc in *. cbn [code with_code]. rewrite Nc, upd_len. exact K3.
        -- exists q, op, (negb c), x, y. split; [reflexivity|]. cbn [code with_code]. rewrite Nc. apply upd_same. apply nth_lt in Nq. exact Nq.
      * intros P X cf0 s0 O A. assert (Hq: hole ex q) by (unfold hole; rewrite Ke; reflexivity).
        assert (X': ext (hole ex) fsx P) by (eapply ext_refines; [exact X|cbn [code with_code]; rewrite Nc; apply refines_point; [exact Hq|auto]|exists []; rewrite app_nil_r; reflexivity]).
        assert (Ts: forall j, tset (code (with_code fsx (negatecondition (code fsx) (S q)))) j = tset (code fsx) j) by (intros j; cbn [code with_code]; rewrite Nc; eapply tset_point; [exact Nq|discriminate..]).
        eapply res_imp; [|apply (i_cl _ _ _ _ _ _ _ I1 P X' cf0 s0 O A)]. intros cf (s & Kp & [Hx|[J|J]]); exists s; (split; [exact Kp|]).
        -- left. unfold exitF in *. rewrite Ke in *. cbn [pred] in *. destruct Hx as (-> & op' & c' & x' & y' & N' & Vc). rewrite Nq in N'. injection N' as <- <- <- <-. split; [reflexivity|].
           exists op, (negb c), x, y. split; [cbn [code with_code]; rewrite Nc; apply upd_same; apply nth_lt in Nq; exact Nq|]. unfold cmpv in *. rewrite Vc. unfold neg. destruct (cres W E (consts P) s op x y) as [[b w]| | |]; cbn; auto. destruct b, c; reflexivity.
        -- right. left. eapply exitJ_tset; [|exact J]. intros j _. apply Ts.
        -- right. right. eapply exitJ_tset; [|exact J]. intros j _. apply Ts.
      * rewrite Ke. discriminate.
    + split; [exact Q1|]. split; [exact Q2|]. split; [exact Q3|]. split; [exact Q4|]. rewrite Q5, Ke. apply Hj. reflexivity.
Qed.
End nots.
