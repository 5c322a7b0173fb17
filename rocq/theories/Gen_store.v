(* Assignments to local variables. *)
Require Import ZArith List Bool Arith Lia.
From Coq Require Import Floats.SpecFloat.
From Verif Require Import Base Float_model Op_model Op_spec Op_proofs Gen_model Gen_spec Gen_facts Gen_run Gen_inv Gen_ops Gen_put Gen_cond Gen_not Gen_seq Gen_opr Gen_opr2 Gen_gen.
Import ListNotations.
Local Open Scope nat_scope.

Section store.
Variable W : Type.
Variable E : env W.
Notation step := (step W E).
Notation config := (config W).
Notation state := (state W).
Notation Res := (Res W E).
Notation steps := (steps W E).
Notation INV := (INV W E).
Notation HC := (HC W E).
Notation HCg := (HCg W E).
Notation TY := (TY W).
Notation arrive := (arrive W).
Notation result := (result W).
Notation then1 := (then1 W).
Definition assert c := unary W E (UAssert c).
Definition landed (b0 r : nat) (s0 : state) (fs : fstate) (o : outcome (val * W)) (cf : config) : Prop :=
  exists s, arrive fs cf s /\ o = Ok (reg s r, world s) /\ forall q, q < b0 -> q <> r -> reg s q = reg s0 q.
Definition LD (fs0 : fstate) (b0 : nat) (fs : fstate) (r : nat) (rs : result) : Prop :=
  forall P, ext nohole fs P -> forall cf0 s0, okst W fs0 s0 -> arrive fs0 cf0 s0 -> Res P cf0 (rs (reg s0) (world s0)) (landed b0 r s0 fs (rs (reg s0) (world s0))).
Lemma keep_but b s0 s r v w : keep W b s0 s -> forall q, q < b -> q <> r -> reg (setr s r v w) q = reg s0 q.
Proof. intros K q L N. cbn. destruct (Nat.eqb_spec q r); [contradiction|]. apply K. exact L. Qed.
Lemma emit_local fs0 b0 fs r op rs : Pre fs0 -> Grow fs0 fs nohole [] -> HC fs0 b0 fs [] [] rs (opv W E op) ->
  LD fs0 b0 (emit fs (Val (Some r) op)) r rs /\ Grow fs0 (emit fs (Val (Some r) op)) nohole [].
Proof.
  intros P0 G H. pose proof (grow_pre _ _ _ _ G) as P1. split; [|apply grow_emit; auto; [discriminate|intros p []]].
  intros P X cf0 s0 O A.
  assert (X': ext nohole fs P) by (eapply ext_refines; [exact X|apply refines_emit; [exact P1|intros p []]|exists []; rewrite app_nil_r; reflexivity]).
  eapply res_bind; [apply (H P X' cf0 s0 O A)|auto|]. intros cf (s & Ke & [[Ar Va]|[J|J]]); [|destruct J as (j & Hj & _); cbn in Hj; lia..].
  eapply res_steps; [eapply emit_run; eauto; intros p []|]. eapply (exec_val W E P (pc fs) r op s _ 0 s0); eauto.
  - eapply text_fixed; [exact X|apply emit_nth; exact P1|exact Logic.I|intros []].
  - lia.
  - intros q Hq. lia.
  - intros v w Eo. exists (setr s r v w). split; [apply arrive_pc; rewrite pc_emit; auto|]. split; [rewrite Eo; cbn; rewrite Nat.eqb_refl; reflexivity|]. apply keep_but. exact Ke.
Qed.
Lemma conv_local fs0 b0 fs r c rs : Pre fs0 -> Grow fs0 fs nohole [] -> LD fs0 b0 fs r rs ->
  LD fs0 b0 (emit fs (Conv r c)) r (then1 rs (assert c)) /\ Grow fs0 (emit fs (Conv r c)) nohole [].
Proof.
  intros P0 G H. pose proof (grow_pre _ _ _ _ G) as P1. split; [|apply grow_emit; auto; [discriminate|intros p []]].
  intros P X cf0 s0 O A.
  assert (X': ext nohole fs P) by (eapply ext_refines; [exact X|apply refines_emit; [exact P1|intros p []]|exists []; rewrite app_nil_r; reflexivity]).
  eapply res_bind; [apply (H P X' cf0 s0 O A)|intros x; apply same_bind|]. intros cf (s & Ar & Er & Ke).
  eapply res_steps; [eapply emit_run; eauto; intros p []|].
  assert (Tx: nth_error (text P) (pc fs) = Some (Conv r c)) by (eapply text_fixed; [exact X|apply emit_nth; exact P1|exact Logic.I|intros []]).
  unfold Gen_opr.then1. rewrite Er. cbn. destruct (do_conv c (reg s r)) as [v| | |] eqn:D; cbn.
  - eapply res_steps; [apply steps_one; unfold Gen_model.step; rewrite Tx, D; reflexivity|]. apply res_ret. exists (setr s r v (world s)).
    split; [apply arrive_pc; rewrite pc_emit; auto|]. cbn. rewrite Nat.eqb_refl. split; [reflexivity|]. intros q L N. destruct (Nat.eqb_spec q r); [contradiction|]. apply Ke; auto.
  - apply res_fail. unfold Gen_model.step. rewrite Tx, D. reflexivity.
  - apply res_fail. unfold Gen_model.step. rewrite Tx, D. exact Logic.I.
  - apply res_fail. unfold Gen_model.step. rewrite Tx, D. exact Logic.I.
Qed.
Lemma ld_ext fs0 b0 fs r rs rs' : (forall s, okst W fs0 s -> rs (reg s) (world s) = rs' (reg s) (world s)) -> LD fs0 b0 fs r rs -> LD fs0 b0 fs r rs'.
Proof. intros Q H P X cf0 s0 O A. rewrite <- (Q s0 O). apply H; auto. Qed.
Lemma reloc_local fs0 b0 fs e rs fs1 p r : Pre fs0 -> INV fs0 b0 fs e rs -> ek e = VReloc p -> et e = [] -> ef e = [] -> samefs fs fs1 ->
  LD fs0 b0 (with_code fs1 (set_a (code fs1) p r)) r rs /\ Grow fs0 (with_code fs1 (set_a (code fs1) p r)) nohole [].
Proof.
  intros P0 I0 Ke Et Ef Sf. pose proof I0 as [G Ki C T]. unfold kindok in Ki. rewrite Ke in Ki. destruct Ki as (Sp & Jp & Fb & La & op & Np & Oc).
  assert (Ec: code fs1 = code fs) by apply Sf. assert (Nh: hole e p) by (unfold hole; rewrite Ke; reflexivity).
  rewrite Ec, (set_a_eq _ _ op) by exact Np. split.
  - intros P X cf0 s0 O A.
    assert (X': ext (hole e) fs P).
    { eapply ext_refines; [exact X|cbn [code with_code]; apply refines_point; [exact Nh|intros q []]|]. exists []. cbn. rewrite app_nil_r. apply Sf. }
    eapply res_bind; [apply (C P X' cf0 s0 O A)|auto|]. intros cf (s & Kp & [Hf|[J|J]]); [|rewrite ?Et, ?Ef in J; destruct J as (j & Hj & _); cbn in Hj; lia..].
    unfold exitF in Hf. rewrite Ke in Hf. destruct Hf as (-> & op' & Np' & Va). rewrite Np in Np'. injection Np' as <-.
    eapply (exec_val W E P p r op s _ 0 s0); eauto.
    + eapply text_fixed; [exact X|cbn [code with_code]; apply upd_same; unfold pc in Sp; lia|exact Logic.I|intros []].
    + lia.
    + intros q Hq. lia.
    + intros v w Eo. exists (setr s r v w). split; [apply arrive_pc; unfold pc in *; cbn [code with_code]; rewrite upd_len; lia|]. split; [rewrite Eo; cbn; rewrite Nat.eqb_refl; reflexivity|]. apply keep_but. exact Kp.
  - destruct Sf as (S1 & S2 & S3 & S4 & S5 & S6). eapply (grow_point fs0 fs (hole e) nohole [] p (Val None op) (Val (Some r) op)); eauto; try discriminate; try (intros; discriminate).
    + eapply grow_cnt; [|exact G]. intros j. unfold pend, vj. rewrite Ke, Et, Ef. reflexivity.
    + intros q [].
Qed.
Definition coerceW (t : tmap) (v : val) (w : W) : outcome (val * W) := bind (coerce t v) (fun v => Ok (v, w)).
Lemma conv_of_cases t : declared t -> (t = T_ANY /\ conv_of t = None) \/ exists c, conv_of t = Some c /\ t = conv_ty c.
Proof.
  intros D. unfold conv_of in *. destruct (Z.eqb_spec t T_INT) as [->|]; [right; eauto|]. destruct (Z.eqb_spec t T_FLT) as [->|]; [right; eauto|].
  destruct (Z.eqb_spec t T_IARR) as [->|]; [right; eauto|]. destruct (Z.eqb_spec t T_FARR) as [->|]; [right; eauto|]. destruct (Z.eqb_spec t T_TAB) as [->|]; [right; eauto|].
  destruct (Z.eqb_spec t T_STR_NIL) as [->|]; [right; eauto|]. destruct (Z.eqb_spec t T_FUN_NIL) as [->|]; [right; eauto|]. left. split; [|reflexivity].
  destruct D as [D|D]; [exact D|]. unfold conv_of in D. repeat match type of D with context [Z.eqb ?a ?b] => destruct (Z.eqb_spec a b); [contradiction|] end. destruct D. reflexivity.
Qed.
Lemma conv_of_ty c : conv_of (conv_ty c) = Some c.
Proof. destruct c; reflexivity. Qed.
Lemma nothing_conv c : nothing_to_do c (conv_ty c) = true.
Proof. destruct c; reflexivity. Qed.
Lemma coerce_none rs t : conv_of t = None -> forall l w, rs l w = then1 rs (coerceW t) l w.
Proof. intros N l w. unfold Gen_opr.then1, coerceW, coerce. rewrite N. destruct (rs l w) as [[? ?]| | |]; reflexivity. Qed.
Lemma coerce_some rs t c : conv_of t = Some c -> forall l w, then1 rs (assert c) l w = then1 rs (coerceW t) l w.
Proof. intros N l w. unfold Gen_opr.then1, coerceW, coerce. rewrite N. reflexivity. Qed.
(* into a local variable, of a value that is not waiting for jumps *)
Lemma d2r_local fs0 b0 fs e rs r fs1 fs2 e2 : Pre fs0 -> r < nactvar fs0 -> nactvar fs0 <= b0 -> INV fs0 b0 fs e rs -> discharged (ek e) -> (forall p, ek e <> VJmp p) -> et e = [] -> ef e = [] ->
  declared (lty fs0 r) -> ((exists x, ek e = VNonreloc x) \/ forall c, conv_of (lty fs0 r) = Some c -> nothing_to_do c (ety e) = true) ->
  samefs fs fs1 -> discharge2reg fs1 e r = (fs2, e2) ->
  LD fs0 b0 fs2 r (then1 rs (coerceW (lty fs0 r))) /\ Grow fs0 fs2 nohole [] /\ e2 = with_k e (VNonreloc r) /\ freereg fs2 = freereg fs1.
Proof.
  intros P0 Lr Lb I0 Di Nj Et Ef Dc St Sf. unfold discharge2reg.
  assert (Dv: dischargevars fs1 e = (fs1, e)) by (unfold dischargevars; destruct (ek e); cbn in Di; try contradiction; reflexivity). rewrite Dv.
  assert (Vt: vty e = ety e) by (unfold vty; destruct (ek e); cbn in Di; try contradiction; reflexivity).
  pose proof (i_ty _ _ _ _ _ _ _ I0) as T. rewrite Vt in T.
  assert (Id: (forall c, conv_of (lty fs0 r) = Some c -> nothing_to_do c (ety e) = true) -> forall s, okst W fs0 s -> rs (reg s) (world s) = then1 rs (coerceW (lty fs0 r)) (reg s) (world s)).
  { intros N s O. destruct (conv_of (lty fs0 r)) as [c|] eqn:Cv; [|apply coerce_none; exact Cv]. rewrite <- (coerce_some rs _ c Cv). eapply then1_id; eauto. }
  assert (Em: forall fsa op, samefs fs1 fsa \/ (exists l, kok (ks fs1 ++ l) /\ fsa = with_ks fs1 (ks fs1 ++ l)) -> arrival (ek e) ->
    (forall P s o, ext nohole fsa P -> valF W E P fs e s o -> opv W E op P s o) ->
    LD fs0 b0 (emit fsa (Val (Some r) op)) r rs /\ Grow fs0 (emit fsa (Val (Some r) op)) nohole []).
  { intros fsa op Sa Ar Hv. pose proof (inv_grow _ _ _ _ _ _ _ I0 Ar) as G. pose proof (inv_hc _ _ _ _ _ _ _ I0 Ar) as Hc. rewrite Et, Ef in G, Hc. cbn [app] in G.
    assert (G1: Grow fs0 fs1 nohole []) by (eapply grow_same; eauto). assert (H1: HC fs0 b0 fs1 [] [] rs (fun P s o => valF W E P fs e s o)) by (eapply hc_same; eauto).
    apply emit_local; auto.
    - destruct Sa as [Sa|(l & Kk & ->)]; [eapply grow_same; eauto|apply grow_ks; auto].
    - destruct Sa as [Sa|(l & Kk & ->)].
      + eapply hc_imp; [eapply hc_same; [exact Sa|exact H1]|]. intros P s s0 X O Kp V. eapply Hv; eauto.
      + eapply hc_imp; [apply hc_ks; exact H1|]. intros P s s0 X O Kp V. eapply Hv; eauto. }
  assert (Wrap: forall fsx, LD fs0 b0 fsx r rs /\ Grow fs0 fsx nohole [] -> ~ (exists x, ek e = VNonreloc x) -> LD fs0 b0 fsx r (then1 rs (coerceW (lty fs0 r))) /\ Grow fs0 fsx nohole []).
  { intros fsx [A B] N. split; [|exact B]. eapply ld_ext; [|exact A]. apply Id. destruct St as [St|St]; [contradiction|exact St]. }
  assert (Kok: kok (ks fs1)) by (destruct Sf as (_ & _ & -> & _); apply (g_kok _ _ _ _ (i_grow _ _ _ _ _ _ _ I0))).
  assert (Cst: forall v fs3 k, litok v -> arrival (ek e) -> ~ (exists x, ek e = VNonreloc x) -> (forall P s o, valF W E P fs e s o -> o = Ok (v, world s)) -> addk fs1 v = (fs3, k) ->
    (LD fs0 b0 (emit fs3 (Val (Some r) (OLoadK k))) r (then1 rs (coerceW (lty fs0 r))) /\ Grow fs0 (emit fs3 (Val (Some r) (OLoadK k))) nohole []) /\ freereg fs3 = freereg fs1).
  { intros v fs3 k Lv Ar Nn Hv Ak. destruct (addk_spec fs1 v fs3 k Kok Lv Ak) as (l & -> & Nk & Kk). split; [|reflexivity]. apply Wrap; [|exact Nn]. apply Em; [right; eauto|exact Ar|].
    intros P s o X V. left. cbn [vres rkval]. rewrite (const_at _ _ P k v X Nk). cbn [bind]. symmetry. eapply Hv; exact V. }
  assert (Nn: forall k, ek e = k -> (forall x, k <> VNonreloc x) -> ~ (exists x, ek e = VNonreloc x)) by (intros k <- H [x Q]; exact (H x Q)).
  destruct (ek e) eqn:Ke; cbn in Di; try contradiction.
  - intros H; injection H as <- <-. destruct (Wrap _ (Em fs1 OLoadNil (or_introl (same_refl _)) Logic.I ltac:(intros P s o X V; unfold valF in V; rewrite Ke in V; left; symmetry; exact V)) ltac:(intros [x Q]; discriminate Q)). auto.
  - intros H; injection H as <- <-. destruct (Wrap _ (Em fs1 (OLoadBool true) (or_introl (same_refl _)) Logic.I ltac:(intros P s o X V; unfold valF in V; rewrite Ke in V; left; symmetry; exact V)) ltac:(intros [x Q]; discriminate Q)). auto.
  - intros H; injection H as <- <-. destruct (Wrap _ (Em fs1 (OLoadBool false) (or_introl (same_refl _)) Logic.I ltac:(intros P s o X V; unfold valF in V; rewrite Ke in V; left; symmetry; exact V)) ltac:(intros [x Q]; discriminate Q)). auto.
  - intros H; injection H as <- <-. assert (LD fs0 b0 (emit fs1 (Val (Some r) (OLoadK k))) r rs /\ Grow fs0 (emit fs1 (Val (Some r) (OLoadK k))) nohole []) as A.
    { apply Em; [left; apply same_refl|exact Logic.I|]. intros P s o X V. unfold valF in V. rewrite Ke in V. destruct V as (v & Nk & ->). left. cbn [vres rkval].
      assert (ks fs1 = ks fs) as Ek by apply Sf. rewrite <- Ek in Nk. rewrite (const_at _ _ P k v X Nk). reflexivity. }
    destruct (Wrap _ A ltac:(intros [x Q]; discriminate Q)). auto.
  - destruct (addk fs1 (I i)) as [fs3 k] eqn:Ak. intros H; injection H as <- <-.
    destruct (Cst (I i) fs3 k ltac:(discriminate) Logic.I ltac:(intros [x Q]; discriminate Q) ltac:(intros P s o V; unfold valF in V; rewrite Ke in V; exact V) Ak) as [[A B] C]. auto.
  - destruct (addk fs1 (F f)) as [fs3 k] eqn:Ak. intros H; injection H as <- <-.
    assert (litok (F f)) as Lf by (pose proof (i_kind _ _ _ _ _ _ _ I0) as Ki; unfold kindok in Ki; rewrite Ke in Ki; intros g Hg; injection Hg as <-; apply Ki).
    destruct (Cst (F f) fs3 k Lf Logic.I ltac:(intros [x Q]; discriminate Q) ltac:(intros P s o V; unfold valF in V; rewrite Ke in V; exact V) Ak) as [[A B] C]. auto.
  - (* VNonreloc *)
    intros H. assert (Ar: arrival (ek e)) by (rewrite Ke; exact Logic.I). assert (De: discharged (ek e)) by (rewrite Ke; exact Logic.I).
    pose proof (inv_grow _ _ _ _ _ _ _ I0 Ar) as G. rewrite Et, Ef in G. cbn [app] in G.
    assert (Hg: HCg fs0 b0 fs rs (fun P s v => v = reg s r0)).
    { eapply inv_g; eauto. intros P s v X V _. unfold valF in V. rewrite Ke in V. injection V as ->. reflexivity. }
    assert (G1: Grow fs0 fs1 nohole []) by (eapply grow_same; eauto).
    destruct (Nat.eqb_spec r r0) as [<-|Nr]; injection H as <- <-.
    + split; [|auto]. intros P X cf0 s0 O A. pose proof (ext_same _ _ _ _ Sf X) as X'.
      eapply res_bind; [apply (Hg P X' cf0 s0 O A)|intros x; apply same_bind|]. intros cf (s & a & Kp & A1 & Er & ->). apply res_ret. exists s.
      split; [eapply arrive_same; eauto|]. split; [|intros q L _; apply Kp; exact L]. unfold Gen_opr.then1, coerceW, coerce. rewrite Er. cbn [bind].
      destruct (conv_of_cases _ Dc) as [[_ ->]|(c & -> & Hc)]; [reflexivity|]. rewrite (conv_id c (conv_ty c)); [reflexivity|apply nothing_conv|]. rewrite <- Hc, Kp by lia. apply O. exact Lr.
    + assert (Mv: LD fs0 b0 (move fs1 r r0) r (then1 rs (coerceW (lty fs0 r))) /\ Grow fs0 (move fs1 r r0) nohole []).
      { assert (Tc: forall c, conv_of (lty fs0 r) = Some c -> LD fs0 b0 (emit fs1 (Val (Some r) (OMoveT c r0))) r (then1 rs (coerceW (lty fs0 r))) /\ Grow fs0 (emit fs1 (Val (Some r) (OMoveT c r0))) nohole []).
        { intros c Cv. apply emit_local; auto. intros P X cf0 s0 O A. pose proof (ext_same _ _ _ _ Sf X) as X'.
          eapply res_bind; [apply (Hg P X' cf0 s0 O A)|intros x; apply same_bind|]. intros cf (s & a & Kp & A1 & Er & ->). apply res_ret. exists s. split; [exact Kp|]. left. split; [eapply arrive_same; eauto|].
          left. unfold Gen_opr.then1, coerceW, coerce. rewrite Er, Cv. reflexivity. }
        assert (Tm: LD fs0 b0 (emit fs1 (Val (Some r) (OMove r0))) r rs /\ Grow fs0 (emit fs1 (Val (Some r) (OMove r0))) nohole []).
        { apply Em; [left; apply same_refl|exact Logic.I|]. intros P s o X V. unfold valF in V. rewrite Ke in V. left. symmetry. exact V. }
        assert (Rt: register_type fs1 r = lty fs0 r).
        { unfold register_type. rewrite (g_nact _ _ _ _ G1), (g_lty _ _ _ _ G1). apply Nat.ltb_lt in Lr. rewrite Lr. reflexivity. }
        destruct Tm as [Tm1 Tm2].
        assert (Tv: forall c, conv_of (lty fs0 r) = Some c -> LD fs0 b0 (emit (emit fs1 (Val (Some r) (OMove r0))) (Conv r c)) r (then1 rs (coerceW (lty fs0 r))) /\ Grow fs0 (emit (emit fs1 (Val (Some r) (OMove r0))) (Conv r c)) nohole []).
        { intros c Cv. destruct (conv_local fs0 b0 _ r c rs P0 Tm2 Tm1) as [A B]. split; [|exact B]. eapply ld_ext; [|exact A]. intros s _. apply coerce_some. exact Cv. }
        unfold move. rewrite Rt. destruct (conv_of_cases _ Dc) as [[Ha Hn]|(c & Cv & Hc)].
        - rewrite Ha. change (Z.eqb T_ANY T_INT) with false. cbn [Z.eqb]. split; [|exact Tm2]. eapply ld_ext; [|exact Tm1]. intros s _. rewrite Ha in Hn. apply coerce_none. exact Hn.
        - rewrite Hc in Tc, Tv |- *. pose proof (conv_of_ty c) as Cc. destruct c; try exact (Tc _ Cc); exact (Tv _ Cc). }
      destruct Mv as [A B]. split; [exact A|]. split; [exact B|]. split; [reflexivity|]. unfold move. repeat match goal with |- context [Z.eqb ?a ?b] => destruct (Z.eqb a b) end; reflexivity.
  - intros H; injection H as <- <-. destruct (Wrap _ (reloc_local fs0 b0 fs e rs fs1 pc r P0 I0 Ke Et Ef Sf) ltac:(intros [x Q]; discriminate Q)). auto.
  - exfalso. exact (Nj _ eq_refl).
Qed.
End store.
