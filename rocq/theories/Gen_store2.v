(* Assignments to a local variable of no declared type, of values that come by jumps. *)
Require Import ZArith List Bool Arith Lia.
From Coq Require Import Floats.SpecFloat.
From Verif Require Import Base Float_model Op_model Op_spec Op_proofs Gen_model Gen_spec Gen_facts Gen_run Gen_inv Gen_ops Gen_put Gen_cond Gen_not Gen_seq Gen_opr Gen_opr2 Gen_gen Gen_store.
Import ListNotations.
Local Open Scope nat_scope.

Section store.
Variable W : Type.
Variable E : env W.
Notation step := (step W E).
Notation config := (config W).
Notation state := (state W).
Notation Res := (Res W E).
Notation steps := (steps W E).
Notation INV := (INV W E).
Notation HC := (HC W E).
Notation TY := (TY W).
Notation arrive := (arrive W).
Notation result := (result W).
Notation LD := (LD W E).
Definition but (b0 r : nat) (s0 s : state) : Prop := forall q, q < b0 -> q <> r -> reg s q = reg s0 q.
Lemma keep_but b s0 s r v w : keep W b s0 s -> but b r s0 (setr s r v w).
Proof. intros K q L N. cbn. destruct (Nat.eqb_spec q r); [contradiction|]. apply K. exact L. Qed.
(* the value is in r, or comes by one of the jumps *)
Definition LDJ (fs0 : fstate) (b0 : nat) (fs : fstate) (t f : list nat) (r : nat) (rs : result) : Prop :=
  forall P, ext nohole fs P -> forall cf0 s0, okst W fs0 s0 -> arrive fs0 cf0 s0 -> Res P cf0 (rs (reg s0) (world s0)) (fun cf =>
    landed W b0 r s0 fs (rs (reg s0) (world s0)) cf \/ exists s, keep W b0 s0 s /\ (exitJ W (code fs) t true cf s (rs (reg s0) (world s0)) \/ exitJ W (code fs) f false cf s (rs (reg s0) (world s0)))).
Lemma emit_ldj fs0 b0 fs r op rs t f : Pre fs0 -> Grow fs0 fs nohole (t ++ f) -> HC fs0 b0 fs t f rs (opv W E op) ->
  LDJ fs0 b0 (emit fs (Val (Some r) op)) t f r rs /\ Grow fs0 (emit fs (Val (Some r) op)) nohole (t ++ f).
Proof.
  intros P0 G H. pose proof (grow_pre _ _ _ _ G) as P1. destruct (grow_tset_emit fs0 fs t f (Val (Some r) op) G) as [Tt Tf]. split; [|apply grow_emit; auto; [discriminate|intros p []]].
  intros P X cf0 s0 O A.
  assert (X': ext nohole fs P) by (eapply ext_refines; [exact X|apply refines_emit; [exact P1|intros p []]|exists []; rewrite app_nil_r; reflexivity]).
  eapply res_bind; [apply (H P X' cf0 s0 O A)|auto|]. intros cf (s & Ke & [[Ar Va]|[J|J]]).
  - eapply res_steps; [eapply emit_run; eauto; intros p []|]. eapply (exec_val W E P (pc fs) r op s _ 0 s0); eauto.
    + eapply text_fixed; [exact X|apply emit_nth; exact P1|exact Logic.I|intros []].
    + lia.
    + intros q Hq. lia.
    + intros v w Eo. left. exists (setr s r v w). split; [apply arrive_pc; rewrite pc_emit; auto|]. split; [rewrite Eo; cbn; rewrite Nat.eqb_refl; reflexivity|]. apply keep_but. exact Ke.
  - apply res_ret. right. exists s. split; [exact Ke|]. left. eapply exitJ_tset; eauto.
  - apply res_ret. right. exists s. split; [exact Ke|]. right. eapply exitJ_tset; eauto.
Qed.
Lemma reloc_ldj fs0 b0 fs e rs fs1 p r : Pre fs0 -> INV fs0 b0 fs e rs -> ek e = VReloc p -> samefs fs fs1 ->
  LDJ fs0 b0 (with_code fs1 (set_a (code fs1) p r)) (et e) (ef e) r rs /\ Grow fs0 (with_code fs1 (set_a (code fs1) p r)) nohole (et e ++ ef e).
Proof.
  intros P0 I0 Ke Sf. pose proof I0 as [G Ki C T]. unfold kindok in Ki. rewrite Ke in Ki. destruct Ki as (Sp & Jp & Fb & La & op & Np & Oc).
  assert (Ec: code fs1 = code fs) by apply Sf. assert (Nh: hole e p) by (unfold hole; rewrite Ke; reflexivity).
  rewrite Ec, (set_a_eq _ _ op) by exact Np.
  assert (Te: forall j, tset (upd (code fs) p (Val (Some r) op)) j = tset (code fs) j) by (intros j; eapply tset_point; [exact Np|discriminate|discriminate]).
  split.
  - intros P X cf0 s0 O A.
    assert (X': ext (hole e) fs P).
    { eapply ext_refines; [exact X|cbn [code with_code]; apply refines_point; [exact Nh|intros q []]|]. exists []. cbn. rewrite app_nil_r. apply Sf. }
    eapply res_bind; [apply (C P X' cf0 s0 O A)|auto|]. intros cf (s & Kp & [Hf|[J|J]]).
    + unfold exitF in Hf. rewrite Ke in Hf. destruct Hf as (-> & op' & Np' & Va). rewrite Np in Np'. injection Np' as <-.
      eapply (exec_val W E P p r op s _ 0 s0); eauto.
      * eapply text_fixed; [exact X|cbn [code with_code]; apply upd_same; unfold pc in Sp; lia|exact Logic.I|intros []].
      * lia.
      * intros q Hq. lia.
      * intros v w Eo. left. exists (setr s r v w). split; [apply arrive_pc; unfold pc in *; cbn [code with_code]; rewrite upd_len; lia|]. split; [rewrite Eo; cbn; rewrite Nat.eqb_refl; reflexivity|]. apply keep_but. exact Kp.
    + apply res_ret. right. exists s. split; [exact Kp|]. left. eapply exitJ_tset; eauto.
    + apply res_ret. right. exists s. split; [exact Kp|]. right. eapply exitJ_tset; eauto.
  - destruct Sf as (S1 & S2 & S3 & S4 & S5 & S6). eapply (grow_point fs0 fs (hole e) nohole (et e ++ ef e) p (Val None op) (Val (Some r) op)); eauto; try discriminate; try (intros; discriminate).
    + eapply grow_cnt; [|exact G]. intros j. unfold pend, vj. rewrite Ke, app_nil_r. reflexivity.
    + intros q [].
Qed.
(* discharge2reg into the variable r of no declared type *)
Lemma d2r_ldj fs0 b0 fs e rs r fs1 fs2 e2 : Pre fs0 -> r < nactvar fs0 -> nactvar fs0 <= b0 -> INV fs0 b0 fs e rs -> discharged (ek e) -> (forall p, ek e <> VJmp p) ->
  lty fs0 r = T_ANY -> samefs fs fs1 -> discharge2reg fs1 e r = (fs2, e2) ->
  LDJ fs0 b0 fs2 (et e) (ef e) r rs /\ Grow fs0 fs2 nohole (et e ++ ef e) /\ e2 = with_k e (VNonreloc r) /\ freereg fs2 = freereg fs1.
Proof.
  intros P0 Lr Lb I0 Di Nj Ta Sf. unfold discharge2reg.
  assert (Dv: dischargevars fs1 e = (fs1, e)) by (unfold dischargevars; destruct (ek e); cbn in Di; try contradiction; reflexivity). rewrite Dv.
  assert (Em: forall fsa op, samefs fs1 fsa \/ (exists l, kok (ks fs1 ++ l) /\ fsa = with_ks fs1 (ks fs1 ++ l)) -> arrival (ek e) ->
    (forall P s o, ext nohole fsa P -> valF W E P fs e s o -> opv W E op P s o) ->
    LDJ fs0 b0 (emit fsa (Val (Some r) op)) (et e) (ef e) r rs /\ Grow fs0 (emit fsa (Val (Some r) op)) nohole (et e ++ ef e)).
  { intros fsa op Sa Ar Hv. pose proof (inv_grow _ _ _ _ _ _ _ I0 Ar) as G. pose proof (inv_hc _ _ _ _ _ _ _ I0 Ar) as Hc.
    assert (G1: Grow fs0 fs1 nohole (et e ++ ef e)) by (eapply grow_same; eauto). assert (H1: HC fs0 b0 fs1 (et e) (ef e) rs (fun P s o => valF W E P fs e s o)) by (eapply hc_same; eauto).
    apply emit_ldj; auto.
    - destruct Sa as [Sa|(l & Kk & ->)]; [eapply grow_same; eauto|apply grow_ks; auto].
    - destruct Sa as [Sa|(l & Kk & ->)].
      + eapply hc_imp; [eapply hc_same; [exact Sa|exact H1]|]. intros P s s0 X O Kp V. eapply Hv; eauto.
      + eapply hc_imp; [apply hc_ks; exact H1|]. intros P s s0 X O Kp V. eapply Hv; eauto. }
  assert (Kok: kok (ks fs1)) by (destruct Sf as (_ & _ & -> & _); apply (g_kok _ _ _ _ (i_grow _ _ _ _ _ _ _ I0))).
  assert (Cst: forall v fs3 k, litok v -> arrival (ek e) -> (forall P s o, valF W E P fs e s o -> o = Ok (v, world s)) -> addk fs1 v = (fs3, k) ->
    (LDJ fs0 b0 (emit fs3 (Val (Some r) (OLoadK k))) (et e) (ef e) r rs /\ Grow fs0 (emit fs3 (Val (Some r) (OLoadK k))) nohole (et e ++ ef e)) /\ freereg fs3 = freereg fs1).
  { intros v fs3 k Lv Ar Hv Ak. destruct (addk_spec fs1 v fs3 k Kok Lv Ak) as (l & -> & Nk & Kk). split; [|reflexivity]. apply Em; [right; eauto|exact Ar|].
    intros P s o X V. left. cbn [vres rkval]. rewrite (const_at _ _ P k v X Nk). cbn [bind]. symmetry. eapply Hv; exact V. }
  destruct (ek e) eqn:Ke; cbn in Di; try contradiction.
  - intros H; injection H as <- <-. destruct (Em fs1 OLoadNil (or_introl (same_refl _)) Logic.I ltac:(intros P s o X V; unfold valF in V; rewrite Ke in V; left; symmetry; exact V)). auto.
  - intros H; injection H as <- <-. destruct (Em fs1 (OLoadBool true) (or_introl (same_refl _)) Logic.I ltac:(intros P s o X V; unfold valF in V; rewrite Ke in V; left; symmetry; exact V)). auto.
  - intros H; injection H as <- <-. destruct (Em fs1 (OLoadBool false) (or_introl (same_refl _)) Logic.I ltac:(intros P s o X V; unfold valF in V; rewrite Ke in V; left; symmetry; exact V)). auto.
  - intros H; injection H as <- <-. destruct (Em fs1 (OLoadK k) (or_introl (same_refl _)) Logic.I) as [A B]; [|auto].
    intros P s o X V. unfold valF in V. rewrite Ke in V. destruct V as (v & Nk & ->). left. cbn [vres rkval].
    assert (ks fs1 = ks fs) as Ek by apply Sf. rewrite <- Ek in Nk. rewrite (const_at _ _ P k v X Nk). reflexivity.
  - destruct (addk fs1 (I i)) as [fs3 k] eqn:Ak. intros H; injection H as <- <-.
    destruct (Cst (I i) fs3 k ltac:(discriminate) Logic.I ltac:(intros P s o V; unfold valF in V; rewrite Ke in V; exact V) Ak) as [[A B] C]. auto.
  - destruct (addk fs1 (F f)) as [fs3 k] eqn:Ak. intros H; injection H as <- <-.
    assert (litok (F f)) as Lf by (pose proof (i_kind _ _ _ _ _ _ _ I0) as Ki; unfold kindok in Ki; rewrite Ke in Ki; intros g Hg; injection Hg as <-; apply Ki).
    destruct (Cst (F f) fs3 k Lf Logic.I ltac:(intros P s o V; unfold valF in V; rewrite Ke in V; exact V) Ak) as [[A B] C]. auto.
  - (* VNonreloc *)
    intros H. assert (Ar: arrival (ek e)) by (rewrite Ke; exact Logic.I).
    pose proof (inv_grow _ _ _ _ _ _ _ I0 Ar) as G. pose proof (inv_hc _ _ _ _ _ _ _ I0 Ar) as Hc. assert (G1: Grow fs0 fs1 nohole (et e ++ ef e)) by (eapply grow_same; eauto).
    destruct (Nat.eqb_spec r r0) as [<-|Nr]; injection H as <- <-.
    + split; [|auto]. intros P X cf0 s0 O A. pose proof (hc_same W E _ _ _ _ _ _ _ _ Sf Hc) as H1. eapply res_imp; [|apply (H1 P X cf0 s0 O A)].
      intros cf (s & Kp & [[A1 V]|J]); [left; exists s|right; exists s; auto]. split; [exact A1|]. unfold valF in V. rewrite Ke in V. split; [exact V|]. intros q L _. apply Kp. exact L.
    + assert (Mv: move fs1 r r0 = emit fs1 (Val (Some r) (OMove r0))).
      { assert (Rt: register_type fs1 r = T_ANY) by (unfold register_type; rewrite (g_nact _ _ _ _ G1), (g_lty _ _ _ _ G1); apply Nat.ltb_lt in Lr; rewrite Lr; exact Ta). unfold move. rewrite Rt. reflexivity. }
      rewrite Mv. destruct (Em fs1 (OMove r0) (or_introl (same_refl _)) Logic.I ltac:(intros P s o X V; unfold valF in V; rewrite Ke in V; left; symmetry; exact V)). auto.
  - intros H; injection H as <- <-. destruct (reloc_ldj fs0 b0 fs e rs fs1 pc r P0 I0 Ke Sf). auto.
  - exfalso. exact (Nj _ eq_refl).
Qed.
(* the jumps of an expression are joined *)
Lemma jumps_to fs0 b0 r fsB t f pf pt : Pre fs0 -> Grow fs0 fsB nohole (t ++ f) ->
  (forall j, 0 < cnt t j -> tset (code fsB) j = None -> exists q, pt = Some q /\ nth_error (code fsB) q = Some (Val (Some r) (OLoadBool true)) /\ S q = pc fsB) ->
  (forall j, 0 < cnt f j -> tset (code fsB) j = None -> exists q, pf = Some q /\ nth_error (code fsB) q = Some (LoadBoolSkip r false) /\ S (S q) = pc fsB) ->
  let fs2 := with_code fsB (patchlistaux (patchlistaux (code fsB) f (pc fsB) (Some r) pf) t (pc fsB) (Some r) pt) in
  Grow fs0 fs2 nohole [] /\ pc fs2 = pc fsB /\ (forall P, ext nohole fs2 P -> ext nohole fsB P) /\
  (forall j, 0 < cnt (jpc fsB) j -> tset (code fs2) j = tset (code fsB) j) /\
  forall P cf (s s0 : state) o (tv : bool), ext nohole fs2 P -> keep W b0 s0 s -> exitJ W (code fsB) (if tv then t else f) tv cf s o ->
    exists s', steps P cf (pc fsB, s') /\ but b0 r s0 s' /\ o = Ok (reg s' r, world s').
Proof.
  intros P0 G Ht Hf. set (c1 := patchlistaux (code fsB) f (pc fsB) (Some r) pf). cbv zeta.
  set (fs2 := with_code fsB (patchlistaux c1 t (pc fsB) (Some r) pt)). set (fs1 := with_code fsB c1).
  assert (U: uniq (jpc fsB ++ t ++ f)) by apply (g_uniq _ _ _ _ G). assert (J: forall j, 0 < cnt (jpc fsB ++ t ++ f) j -> jok (code fsB) j) by apply (g_jok _ _ _ _ G).
  assert (G1: Grow fs0 fs1 nohole t).
  { eapply (grow_patch fs0 fsB fs1 nohole (t ++ f) f); eauto; try reflexivity. intros j. cbn [jpc with_code fs1]. rewrite !cnt_app. lia. }
  assert (G2: Grow fs0 fs2 nohole []).
  { eapply (grow_patch fs0 fs1 fs2 nohole t t); eauto; try reflexivity. intros j. cbn [jpc with_code fs1 fs2]. rewrite !cnt_app. cbn. lia. }
  assert (Uf: uniq f) by (intros j; specialize (U j); rewrite !cnt_app in U; lia). assert (Jf: forall j, 0 < cnt f j -> jok (code fsB) j) by (intros j H; apply J; rewrite !cnt_app; lia).
  assert (Ut: uniq t) by (intros j; specialize (U j); rewrite !cnt_app in U; lia). assert (Jt: forall j, 0 < cnt t j -> jok c1 j) by (intros j H; apply (g_jok _ _ _ _ G1); rewrite cnt_app; lia).
  assert (T1: forall j, 0 < cnt (jpc fsB ++ t) j -> tset c1 j = tset (code fsB) j).
  { intros j H. apply patch_jok; auto; [apply J; rewrite !cnt_app in *; lia|]. specialize (U j). rewrite !cnt_app in *. lia. }
  assert (T2: forall j, 0 < cnt (jpc fsB) j -> tset (code fs2) j = tset c1 j).
  { intros j H. apply patch_jok; auto; [apply (g_jok _ _ _ _ G1); cbn [jpc fs1 with_code]; rewrite cnt_app; lia|]. specialize (U j). rewrite !cnt_app in *. lia. }
  assert (X1: forall P, ext nohole fs2 P -> ext nohole fs1 P).
  { intros P X. eapply ext_refines; [exact X|apply refines_patch; auto|exists []; rewrite app_nil_r; reflexivity]. }
  assert (X2: forall P, ext nohole fs2 P -> ext nohole fsB P).
  { intros P X. eapply ext_refines; [apply (X1 P X)|apply refines_patch; auto|exists []; rewrite app_nil_r; reflexivity]. }
  split; [exact G2|]. split.
  { unfold pc. cbn [code with_code fs2]. destruct (patch_spec c1 t (length (code fsB)) (Some r) pt Ut) as [L _]; [intros j H; apply (Jt j H)|]. unfold pc. rewrite L.
    destruct (patch_spec (code fsB) f (pc fsB) (Some r) pf Uf) as [L1 _]; [intros j H; apply (Jf j H)|]. exact L1. }
  split; [exact X2|]. split; [intros j H; rewrite (T2 j H); apply T1; rewrite cnt_app; lia|].
  intros P cf s s0 o tv X Kp (j & Hj & Aj & Vo). pose proof (X2 P X) as XB.
  assert (Up: forall s' v, upto W s s' r v -> but b0 r s0 s' /\ Ok (v, world s) = Ok (reg s' r, world s')).
  { intros s' v (U1 & U2 & U3). split; [intros q Hq Nq; rewrite U2 by exact Nq; apply Kp; exact Hq|]. rewrite U1, U3. reflexivity. }
  assert (Nn: forall q, ~ nohole q) by (intros q []).
  destruct tv.
  - (* true *)
    assert (Et: tset c1 j = tset (code fsB) j) by (apply T1; rewrite cnt_app; lia).
    assert (A1: atj W c1 j cf s) by (unfold atj in *; rewrite Et; exact Aj).
    pose proof (patched_run W E nohole c1 t (pc fsB) (Some r) pt fs2 P j cf s X eq_refl Ut Jt Hj (Nn j) (fun q _ => Nn q) A1) as R. rewrite Et in R.
    destruct (tset (code fsB) j) as [[b cc]|] eqn:Tb.
    + destruct R as (s' & R & Us). destruct Vo as [-> ->]. destruct (Up s' _ Us) as [K1 K2]. exists s'. auto.
    + destruct (Ht j Hj Tb) as (q & -> & Nq & Sq). subst o. exists (setr s r (Bool true) (world s)). split.
      * eapply steps_trans; [exact R|]. rewrite <- Sq. apply steps_one. unfold Gen_model.step. rewrite (text_fixed nohole fsB P q _ XB Nq Logic.I (Nn q)). reflexivity.
      * split; [apply keep_but; exact Kp|]. cbn. rewrite Nat.eqb_refl. reflexivity.
  - pose proof (patched_run W E nohole (code fsB) f (pc fsB) (Some r) pf fs1 P j cf s (X1 P X) eq_refl Uf Jf Hj (Nn j) (fun q _ => Nn q) Aj) as R.
    destruct (tset (code fsB) j) as [[b cc]|] eqn:Tb.
    + destruct R as (s' & R & Us). destruct Vo as [-> ->]. destruct (Up s' _ Us) as [K1 K2]. exists s'. auto.
    + destruct (Hf j Hj Tb) as (q & -> & Nq & Sq). subst o. exists (setr s r (Bool false) (world s)). split.
      * eapply steps_trans; [exact R|]. rewrite <- Sq. apply steps_one. unfold Gen_model.step. rewrite (text_fixed nohole fsB P q _ XB Nq Logic.I (Nn q)). reflexivity.
      * split; [apply keep_but; exact Kp|]. cbn. rewrite Nat.eqb_refl. reflexivity.
Qed.
Lemma finish_ldj fs0 b0 fs e r rs fs2 e2 : Pre fs0 -> Grow fs0 fs nohole (et e ++ ef e) -> LDJ fs0 b0 fs (et e) (ef e) r rs -> ek e = VNonreloc r ->
  finish fs e r = (fs2, e2) -> LD fs0 b0 fs2 r rs /\ Grow fs0 fs2 nohole [] /\ freereg fs2 = freereg fs.
Proof.
  intros P0 G Hc Ke. pose proof (grow_pre _ _ _ _ G) as P1.
  unfold finish. rewrite Ke. cbv iota.
  (* the general step *)
  assert (D: forall fsB pf pt, Grow fs0 fsB nohole (et e ++ ef e) -> freereg fsB = freereg fs ->
    (forall j, 0 < cnt (et e) j -> tset (code fsB) j = None -> exists q, pt = Some q /\ nth_error (code fsB) q = Some (Val (Some r) (OLoadBool true)) /\ S q = pc fsB) ->
    (forall j, 0 < cnt (ef e) j -> tset (code fsB) j = None -> exists q, pf = Some q /\ nth_error (code fsB) q = Some (LoadBoolSkip r false) /\ S (S q) = pc fsB) ->
    refines nohole (code fs) nohole (code fsB) -> ks fsB = ks fs ->
    (forall j, 0 < cnt (et e ++ ef e) j -> tset (code fsB) j = tset (code fs) j) ->
    (pc fsB = pc fs \/ (0 < cnt (jpc fsB) (pc fs) /\ tset (code fsB) (pc fs) = None)) ->
    (forall j, 0 < cnt (jpc fs) j -> 0 < cnt (jpc fsB) j /\ tset (code fsB) j = tset (code fs) j) ->
    let fs2 := with_code fsB (patchlistaux (patchlistaux (code fsB) (ef e) (pc fsB) (Some r) pf) (et e) (pc fsB) (Some r) pt) in LD fs0 b0 fs2 r rs /\ Grow fs0 fs2 nohole [] /\ freereg fs2 = freereg fs).
  { intros fsB pf pt GB FB Ht Hf Rf Ek Tj Hp Hj. destruct (jumps_to fs0 b0 r fsB (et e) (ef e) pf pt P0 GB Ht Hf) as (G2 & Pc & X2 & Tk & Run).
    intros fs2'. split; [|split; [exact G2|exact FB]].
    intros P X cf0 s0 O A. pose proof (X2 P X) as XB. assert (X': ext nohole fs P) by (eapply ext_refines; [exact XB|exact Rf|exists []; rewrite app_nil_r; exact Ek]).
    eapply res_bind; [apply (Hc P X' cf0 s0 O A)|auto|]. intros cf [(s & Ap & V & Kb)|(s & Kp & [J|J])].
    + apply res_ret. exists s. split; [|auto]. destruct Ap as [->|(j & H1 & H2)].
      * destruct Hp as [Hp|[Hp1 Hp2]]; [left; unfold fs2'; rewrite Pc, Hp; reflexivity|]. right. exists (pc fs). split; [exact Hp1|]. unfold atj, fs2'. rewrite (Tk _ Hp1), Hp2. reflexivity.
      * right. destruct (Hj j H1) as [H3 H4]. exists j. split; [exact H3|]. unfold atj, fs2' in *. rewrite (Tk _ H3), H4. exact H2.
    + assert (J': exitJ W (code fsB) (et e) true cf s (rs (reg s0) (world s0))) by (eapply exitJ_tset; [|exact J]; intros j H; apply Tj; rewrite cnt_app; lia).
      destruct (Run P cf s s0 _ true X Kp J') as (s' & R & K2 & Eo).
      eapply res_steps; [exact R|]. apply res_ret. exists s'. split; [apply arrive_pc; symmetry; exact Pc|]. split; [exact Eo|exact K2].
    + assert (J': exitJ W (code fsB) (ef e) false cf s (rs (reg s0) (world s0))) by (eapply exitJ_tset; [|exact J]; intros j H; apply Tj; rewrite cnt_app; lia).
      destruct (Run P cf s s0 _ false X Kp J') as (s' & R & K2 & Eo).
      eapply res_steps; [exact R|]. apply res_ret. exists s'. split; [apply arrive_pc; symmetry; exact Pc|]. split; [exact Eo|exact K2]. }
  destruct (hasjumps e) eqn:Hj.
  - destruct (need_value (code fs) (et e) || need_value (code fs) (ef e)) eqn:Nv.
    + destruct (luaK_jump fs) as [fsA fj] eqn:Lj. intros H; injection H as <- <-.
      destruct (grow_jump fs0 fs nohole (et e ++ ef e) P0 G) as (GA & CA & JA); [intros p []|]. rewrite Lj in GA, CA, JA. cbn [fst] in GA, CA, JA.
      assert (Efj: fj = pc fs :: jpc fs) by (unfold luaK_jump in Lj; injection Lj as _ <-; reflexivity).
      assert (FA: freereg fsA = freereg fs) by (unfold luaK_jump in Lj; injection Lj as <- _; reflexivity).
      assert (KA: ks fsA = ks fs) by (unfold luaK_jump in Lj; injection Lj as <- _; reflexivity).
      set (fsC := emit fsA (LoadBoolSkip r false)). set (fsD := emit fsC (Val (Some r) (OLoadBool true))).
      assert (GC: Grow fs0 fsC nohole ((pc fs :: jpc fs) ++ et e ++ ef e)) by (apply grow_emit; auto; [discriminate|intros p []]).
      assert (GD: Grow fs0 fsD nohole ((pc fs :: jpc fs) ++ et e ++ ef e)) by (apply grow_emit; auto; [discriminate|intros p []]).
      assert (CC: code fsC = (code fs ++ [Jmp None]) ++ [LoadBoolSkip r false]) by (unfold fsC; rewrite code_emit by exact JA; rewrite CA; reflexivity).
      assert (CD: code fsD = ((code fs ++ [Jmp None]) ++ [LoadBoolSkip r false]) ++ [Val (Some r) (OLoadBool true)]) by (unfold fsD; rewrite code_emit by reflexivity; rewrite CC; reflexivity).
      assert (PA: pc fsA = S (pc fs)) by (unfold pc; rewrite CA, app_length; cbn; lia).
      assert (PC: pc fsC = S (S (pc fs))) by (unfold pc; rewrite CC, !app_length; cbn; lia).
      assert (PD: pc fsD = S (S (S (pc fs)))) by (unfold pc; rewrite CD, !app_length; cbn; lia).
      assert (TD: forall j, jok (code fs) j -> tset (code fsD) j = tset (code fs) j).
      { intros j Jj. rewrite CD. destruct (jok_app _ (Jmp None) _ Jj) as [J1 T1]. destruct (jok_app _ (LoadBoolSkip r false) _ J1) as [J2 T2].
        destruct (jok_app _ (Val (Some r) (OLoadBool true)) _ J2) as [J3 T3]. rewrite T3, T2, T1. reflexivity. }
      assert (JJ: forall j, 0 < cnt (jpc fs ++ et e ++ ef e) j -> jok (code fs) j) by apply (g_jok _ _ _ _ G).
      rewrite Ke. cbv beta iota zeta. fold fsC. fold fsD. rewrite PA, PC. apply D.
      * eapply grow_move; [exact GD|reflexivity..|]. intros j. unfold patchtohere. cbn [jpc with_jpc]. rewrite Efj. rewrite app_assoc. reflexivity.
      * exact FA.
      * intros j _ _. exists (S (S (pc fs))). split; [reflexivity|]. cbn [code patchtohere with_jpc]. split; [|unfold pc at 2; cbn [code patchtohere with_jpc]; fold (pc fsD); lia].
        rewrite CD. replace (S (S (pc fs))) with (length ((code fs ++ [Jmp None]) ++ [LoadBoolSkip r false])) by (rewrite !app_length; cbn; unfold pc; lia). apply nth_last.
      * intros j _ _. exists (S (pc fs)). split; [reflexivity|]. cbn [code patchtohere with_jpc]. split; [|unfold pc at 2; cbn [code patchtohere with_jpc]; fold (pc fsD); lia].
        rewrite CD. rewrite nth_app1 by (rewrite !app_length; cbn; unfold pc; lia). replace (S (pc fs)) with (length (code fs ++ [Jmp None])) by (rewrite !app_length; cbn; unfold pc; lia). apply nth_last.
      * cbn [code patchtohere with_jpc]. rewrite CD, <- !app_assoc. apply refines_app. intros p [].
      * exact KA.
      * intros j H. cbn [code patchtohere with_jpc]. apply TD. apply JJ. rewrite cnt_app. lia.
      * right. cbn [code jpc patchtohere with_jpc]. rewrite Efj. cbn [app]. split; [rewrite cnt_app, cnt_cons, cnt_self; lia|]. rewrite CD, <- !app_assoc.
        apply lastok_tset_app. apply (g_last _ _ _ _ G).
      * intros j H. cbn [code jpc patchtohere with_jpc]. rewrite Efj. split; [rewrite cnt_app, cnt_cons; lia|]. apply TD. apply JJ. rewrite cnt_app. lia.
    + intros H; injection H as <- <-. apply orb_false_iff in Nv. destruct Nv as [N1 N2].
      assert (JJ: forall j, 0 < cnt (jpc fs ++ et e ++ ef e) j -> jok (code fs) j) by apply (g_jok _ _ _ _ G).
      cbv beta iota zeta. apply D; auto; try reflexivity.
      * intros j H1 H2. exfalso. eapply (need_value_spec _ _ j N1 H1); [|exact H2]. apply JJ. rewrite !cnt_app. lia.
      * intros j H1 H2. exfalso. eapply (need_value_spec _ _ j N2 H1); [|exact H2]. apply JJ. rewrite !cnt_app. lia.
      * apply refines_refl.
  - intros H; injection H as <- <-. unfold hasjumps in Hj. destruct (et e) eqn:Et; [|discriminate]. destruct (ef e) eqn:Ef; [|discriminate].
    split; [|auto]. intros P X cf0 s0 O A. eapply res_imp; [|apply (Hc P X cf0 s0 O A)]. intros cf [H|(s & _ & [(j & Hj' & _)|(j & Hj' & _)])]; [exact H|cbn in Hj'; lia..].
Qed.
Lemma jmp_ldj fs0 b0 fs e rs r fs1 fs2 e2 p : Pre fs0 -> INV fs0 b0 fs e rs -> ek e = VJmp p -> samefs fs fs1 ->
  finish fs1 e r = (fs2, e2) -> LD fs0 b0 fs2 r rs /\ Grow fs0 fs2 nohole [] /\ freereg fs2 = freereg fs1.
Proof.
  intros P0 I0 Ke Sf. pose proof I0 as [G0 Ki C T]. unfold kindok in Ki. rewrite Ke in Ki. destruct Ki as (Fb & Jp0 & Sp0 & q & op & c & x & y & -> & Nq0).
  assert (Ec: code fs1 = code fs) by apply Sf. assert (Jp: jpc fs1 = []) by (destruct Sf as (_ & -> & _); exact Jp0).
  assert (Sp: S (S q) = pc fs1) by (unfold pc in *; rewrite Ec; exact Sp0). assert (Nq: nth_error (code fs1) q = Some (Cmp op c x y)) by (rewrite Ec; exact Nq0).
  set (t := et e ++ [S q]). set (f := ef e).
  assert (G: Grow fs0 fs1 nohole (t ++ f)).
  { eapply grow_cnt; [|eapply grow_nohole; eapply grow_same; [exact Sf|exact G0]]. intros j. unfold pend, vj, t, f. rewrite Ke, !cnt_app. lia. }
  pose proof (grow_pre _ _ _ _ G) as P1.
  assert (JJ: forall j, 0 < cnt (t ++ f) j -> jok (code fs1) j) by (intros j H; apply (g_jok _ _ _ _ G); rewrite cnt_app; lia).
  assert (Tq: tset (code fs1) (S q) = None) by (cbn; rewrite Nq; reflexivity).
  assert (Iq: 0 < cnt t (S q)) by (unfold t; rewrite cnt_app, cnt_self; lia).
  unfold finish. rewrite Ke. cbv iota zeta. cbn [et ef ek ety]. fold t f.
  assert (Hj: hasjumps (mk (VJmp (S q)) t f (ety e)) = true) by (unfold hasjumps, t; cbn [et ef]; destruct (et e); reflexivity).
  rewrite Hj. destruct (need_value (code fs1) t) eqn:Nv.
  2: { exfalso. eapply (need_value_spec _ _ (S q) Nv Iq); [|exact Tq]. apply JJ. rewrite cnt_app. lia. }
  cbn [orb]. intros H; injection H as <- <-.
  set (fsC := emit fs1 (LoadBoolSkip r false)). set (fsD := emit fsC (Val (Some r) (OLoadBool true))). set (fsB := patchtohere fsD []).
  assert (GC: Grow fs0 fsC nohole (t ++ f)) by (apply grow_emit; auto; [discriminate|intros p []]).
  assert (GD: Grow fs0 fsD nohole (t ++ f)) by (apply grow_emit; auto; [discriminate|intros p []]).
  assert (GB: Grow fs0 fsB nohole (t ++ f)) by (eapply grow_move; [exact GD|reflexivity..|intros j; reflexivity]).
  assert (CC: code fsC = code fs1 ++ [LoadBoolSkip r false]) by (unfold fsC; rewrite code_emit by exact Jp; reflexivity).
  assert (CD: code fsD = (code fs1 ++ [LoadBoolSkip r false]) ++ [Val (Some r) (OLoadBool true)]) by (unfold fsD; rewrite code_emit by reflexivity; rewrite CC; reflexivity).
  assert (CB: code fsB = code fsD) by reflexivity.
  assert (PC: pc fsC = S (pc fs1)) by (unfold pc; rewrite CC, app_length; cbn; lia).
  assert (PB: pc fsB = S (S (pc fs1))) by (unfold pc; rewrite CB, CD, !app_length; cbn; lia).
  assert (TB: forall j, 0 < cnt (t ++ f) j -> tset (code fsB) j = tset (code fs) j).
  { intros j H. rewrite CB, CD, <- Ec. destruct (jok_app _ (LoadBoolSkip r false) _ (JJ j H)) as [J1 T2].
    destruct (jok_app _ (Val (Some r) (OLoadBool true)) _ J1) as [J3 T3]. rewrite T3, T2. reflexivity. }
  assert (Ht: forall j, 0 < cnt t j -> tset (code fsB) j = None -> exists q, Some (S (pc fs1)) = Some q /\ nth_error (code fsB) q = Some (Val (Some r) (OLoadBool true)) /\ S q = pc fsB).
  { intros j _ _. exists (S (pc fs1)). split; [reflexivity|]. split; [|lia]. rewrite CB, CD. replace (S (pc fs1)) with (length (code fs1 ++ [LoadBoolSkip r false])) by (rewrite app_length; cbn; unfold pc; lia). apply nth_last. }
  assert (NL: nth_error (code fsB) (pc fs1) = Some (LoadBoolSkip r false)) by (rewrite CB, CD, nth_app1 by (rewrite app_length; cbn; unfold pc; lia); apply nth_last).
  assert (Hf: forall j, 0 < cnt f j -> tset (code fsB) j = None -> exists q, Some (pc fs1) = Some q /\ nth_error (code fsB) q = Some (LoadBoolSkip r false) /\ S (S q) = pc fsB).
  { intros j _ _. exists (pc fs1). split; [reflexivity|]. split; [exact NL|lia]. }
  rewrite ?Ke. cbv beta iota zeta. fold fsC. fold fsD. fold fsB. rewrite PC. destruct (jumps_to fs0 b0 r fsB t f (Some (pc fs1)) (Some (S (pc fs1))) P0 GB Ht Hf) as (G2 & Pc & X2 & Tk & Run).
  split; [|split; [exact G2|reflexivity]].
  - intros P X cf0 s0 O A. pose proof (X2 P X) as XB.
    assert (X1: ext nohole fs1 P).
    { eapply ext_refines; [exact XB| |exists []; rewrite app_nil_r; reflexivity]. rewrite CB, CD, <- !app_assoc. apply refines_app. intros p []. }
    assert (X': ext (hole e) fs P) by (eapply ext_hole; [|eapply ext_same; [exact Sf|exact X1]]; intros p []).
    eapply res_bind; [apply (C P X' cf0 s0 O A)|auto|]. intros cf (s & Kp & Ex). remember (rs (reg s0) (world s0)) as o.
    set (fs2' := with_code fsB (patchlistaux (patchlistaux (code fsB) f (pc fsB) (Some r) (Some (pc fs1))) t (pc fsB) (Some r) (Some (S (pc fs1))))) in *.
    assert (Fin: forall tv cf1 s1, keep W b0 s0 s1 -> exitJ W (code fsB) (if tv : bool then t else f) tv cf1 s1 o -> Res P cf1 o (landed W b0 r s0 fs2' o)).
    { intros tv cf1 s1 K1 J1. destruct (Run P cf1 s1 s0 o tv X K1 J1) as (s' & R & K2 & Eo). eapply res_steps; [exact R|]. apply res_ret. exists s'.
      split; [apply arrive_pc; symmetry; exact Pc|]. split; [exact Eo|exact K2]. }
    destruct Ex as [Hx|[J|J]].
    + unfold exitF in Hx. rewrite Ke in Hx. cbn [pred] in Hx. destruct Hx as (-> & op' & c' & x' & y' & N' & Vc). rewrite Nq0 in N'. injection N' as <- <- <- <-.
      unfold cmpv in Vc. assert (Tx: nth_error (text P) q = Some (Cmp op c x y)) by (eapply text_fixed; [exact X1|exact Nq|exact Logic.I|intros []]).
      destruct (cres W E (consts P) s op x y) as [[b w]|er| |] eqn:Cr; cbn [bind] in Vc.
      * assert (St: step P (q, s) = Ok (if Bool.eqb b c then S q else S (S q), mkst (reg s) w)) by (unfold Gen_model.step; rewrite Tx, Cr; reflexivity).
        eapply res_steps; [apply steps_one; exact St|]. destruct (Bool.eqb b c) eqn:Bc.
        -- apply (Fin true _ (mkst (reg s) w)); [exact Kp|]. exists (S q). split; [exact Iq|]. unfold atj. rewrite (TB (S q)) by (rewrite cnt_app; lia). rewrite <- Ec, Tq. split; [reflexivity|exact Vc].
        -- eapply res_steps; [|apply res_ret]; [rewrite Sp; apply steps_one; unfold Gen_model.step; rewrite (text_fixed nohole fsB P _ _ XB NL Logic.I); [reflexivity|intros []]|].
           exists (setr (mkst (reg s) w) r (Bool false) w). split; [apply arrive_pc; etransitivity; [|symmetry; exact Pc]; lia|]. split; [|apply keep_but; exact Kp].
           rewrite Vc. cbn. rewrite Nat.eqb_refl. reflexivity.
      * apply res_fail. unfold Gen_model.step. rewrite Tx, Cr, Vc. reflexivity.
      * apply res_fail. unfold Gen_model.step. rewrite Tx, Cr, Vc. exact Logic.I.
      * apply res_fail. unfold Gen_model.step. rewrite Tx, Cr, Vc. exact Logic.I.
    + apply (Fin true _ s); [exact Kp|]. eapply exitJ_tset; [|apply exitJ_app; exact J]. intros j H. apply TB. rewrite cnt_app. fold t in H. lia.
    + apply (Fin false _ s); [exact Kp|]. eapply exitJ_tset; [|exact J]. intros j H. apply TB. rewrite cnt_app. fold f in H. lia.
Qed.
(* luaK_storevar of any expression to a variable of no declared type *)
Lemma store_any n lt fs fs1 e rs r fs2 : Pre fs -> nactvar fs = n -> lty fs = lt -> r < n -> n <= freereg fs -> INV fs (freereg fs) fs1 e rs -> lt r = T_ANY ->
  storelocal fs1 r e = Ok fs2 -> freereg fs2 = freereg fs /\ LD fs (freereg fs) fs2 r rs /\ Grow fs fs2 nohole [].
Proof.
  intros P0 A1 A3 Lr Lf I0 Ta X. assert (Lq: nactvar fs <= freereg fs) by lia. pose proof (i_grow _ _ _ _ _ _ _ I0) as G0.
  assert (Rt: register_type fs1 r = T_ANY) by (unfold register_type; rewrite (g_nact _ _ _ _ G0), (g_lty _ _ _ _ G0), A1, A3; apply Nat.ltb_lt in Lr; rewrite Lr; exact Ta).
  assert (X': fst (exp2reg (freeexp fs1 e) e r) = fs2) by (unfold storelocal in X; rewrite Rt in X; unfold check_valid_store in X; destruct (ek e); cbn in X; injection X as X; exact X). clear X.
  destruct (dischargevars (freeexp fs1 e) e) as [fx ex] eqn:Dx.
  assert (D: exists fy, INV fs (freereg fs) fy ex rs /\ samefs fy fx /\ discharged (ek ex) /\ freereg fx = freereg fs).
  { assert (Dk: (exists x, ek e = VNonreloc x) \/ freeexp fs1 e = fs1) by (unfold freeexp; destruct (ek e); eauto).
    destruct Dk as [[x Kx]|Fe].
    - assert (dischargevars (freeexp fs1 e) e = (freeexp fs1 e, e)) as Q by (unfold dischargevars; rewrite Kx; reflexivity). rewrite Q in Dx. injection Dx as <- <-. exists fs1.
      assert (De: discharged (ek e)) by (rewrite Kx; exact Logic.I).
      destruct (freeexp_base (nactvar fs) (freereg fs) fs1 e Lq (g_nact _ _ _ _ (i_grow _ _ _ _ _ _ _ I0)) (i_kind _ _ _ _ _ _ _ I0) De) as [Fb Sf]. auto 10.
    - rewrite Fe in Dx. destruct (dischargevars_inv W E _ _ _ _ _ _ _ P0 I0 Dx) as (I1 & D1 & Ty & Et1 & Ef1). exists fx. split; [exact I1|]. split; [apply same_refl|]. split; [exact D1|].
      destruct (dv_cases _ _ _ _ Dx) as [[-> ->]|[(-> & y & Ky & Kx)|[[p Kx] _]]].
      + pose proof (i_kind _ _ _ _ _ _ _ I1) as Ki. unfold kindok in Ki. destruct (ek e) eqn:Ke; cbn in D1; try contradiction; try lia; try (intuition; fail).
        destruct Ki as [Ki|[-> Ki]]; [lia|]. exfalso. unfold freeexp in Fe. rewrite Ke in Fe. unfold free_reg in Fe. rewrite (g_nact _ _ _ _ (i_grow _ _ _ _ _ _ _ I1)) in Fe.
        destruct (Nat.leb_spec (nactvar fs) (freereg fs)); [|lia]. apply (f_equal freereg) in Fe. cbn in Fe. lia.
      + pose proof (i_kind _ _ _ _ _ _ _ I0) as Ki. unfold kindok in Ki. rewrite Ky in Ki. lia.
      + pose proof (i_kind _ _ _ _ _ _ _ I1) as Ki. unfold kindok in Ki. rewrite Kx in Ki. lia. }
  destruct D as (fy & I1 & Sf & D1 & Fr). rewrite exp2reg_eq in X'.
  assert (Dr: discharge2reg (freeexp fs1 e) e r = discharge2reg fx ex r).
  { unfold discharge2reg. rewrite Dx. assert (dischargevars fx ex = (fx, ex)) as -> by (unfold dischargevars; destruct (ek ex); cbn in D1; try contradiction; reflexivity). reflexivity. }
  rewrite Dr in X'. assert (Jd: (exists p, ek ex = VJmp p) \/ forall p, ek ex <> VJmp p) by (destruct (ek ex); first [left; eexists; reflexivity|right; intros q Q; discriminate Q]).
  destruct Jd as [[p Kp]|Nj].
  - assert (Q: discharge2reg fx ex r = (fx, ex)) by (unfold discharge2reg, dischargevars; rewrite Kp; rewrite Kp; reflexivity). rewrite Q in X'. destruct (finish fx ex r) as [f2 e2] eqn:Fi. cbn in X'. subst f2.
    destruct (jmp_ldj _ _ _ _ _ _ _ _ _ _ P0 I1 Kp Sf Fi) as (A & B & C). split; [congruence|auto].
  - destruct (discharge2reg fx ex r) as [f2 e2] eqn:D2. destruct (d2r_ldj fs (freereg fs) fy ex rs r fx f2 e2 P0 ltac:(lia) Lq I1 D1 Nj ltac:(rewrite A3; exact Ta) Sf D2) as (A & B & -> & C).
    destruct (finish f2 (with_k ex (VNonreloc r)) r) as [f3 e3] eqn:Fi. cbn in X'. subst f3. destruct (finish_ldj fs (freereg fs) f2 (with_k ex (VNonreloc r)) r rs fs2 e3 P0 B A eq_refl Fi) as (A' & B' & C'). split; [congruence|auto].
Qed.
End store.
