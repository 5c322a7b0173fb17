(* One expression after another: operands. *)
Require Import ZArith List Bool Arith Lia.
From Verif Require Import Base Float_model Op_model Op_spec Op_proofs Gen_model Gen_spec Gen_facts Gen_run Gen_inv Gen_ops Gen_put Gen_cond.
Import ListNotations.
Local Open Scope nat_scope.

Section seq.
Variable W : Type.
Variable E : env W.
Notation step := (step W E).
Notation config := (config W).
Notation state := (state W).
Notation Res := (Res W E).
Notation steps := (steps W E).
Notation INV := (INV W E).
Notation HC := (HC W E).
Notation TY := (TY W).
Notation keep := (keep W).
Notation okst := (okst W).
Notation arrive := (arrive W).
Notation rkval := (rkval W).

Definition resultA (A : Type) := (nat -> val) -> W -> outcome (A * W).
Definition HCg {A} (fs0 : fstate) (b0 : nat) (fs : fstate) (r : resultA A) (S : prog -> state -> A -> Prop) : Prop :=
  forall P, ext nohole fs P -> forall cf0 s0, okst fs0 s0 -> arrive fs0 cf0 s0 ->
  Res P cf0 (r (reg s0) (world s0)) (fun cf => exists s a, keep b0 s0 s /\ arrive fs cf s /\ r (reg s0) (world s0) = Ok (a, world s) /\ S P s a).
(* a result that depends on the local variables only *)
Definition LO {A} (n : nat) (r : resultA A) : Prop := forall l l' w, (forall x, x < n -> l x = l' x) -> r l w = r l' w.
Definition pairr {A B} (r1 : resultA A) (r2 : resultA B) : resultA (A * B) :=
  fun l w => bind (r1 l w) (fun '(a, w) => bind (r2 l w) (fun '(b, w) => Ok ((a, b), w))).
Lemma pair_bind {A B C} (r1 : resultA A) (r2 : resultA B) (F : A * B -> W -> outcome C) l w :
  bind (pairr r1 r2 l w) (fun '(p, w) => F p w) = bind (r1 l w) (fun '(a, w) => bind (r2 l w) (fun '(b, w) => F (a, b) w)).
Proof. unfold pairr. destruct (r1 l w) as [[a w1]| | |]; cbn; auto. destruct (r2 l w1) as [[b w2]| | |]; cbn; auto. Qed.
Lemma okst_grow fs0 fs h l s : Grow fs0 fs h l -> okst fs0 s -> okst fs s.
Proof. intros G O r. rewrite (g_nact _ _ _ _ G), (g_lty _ _ _ _ G). apply O. Qed.
Lemma ext_grow fs0 fs h l P : Grow fs0 fs h l -> ext h fs P -> ext nohole fs0 P.
Proof. intros G X. eapply ext_refines; [exact X|apply (g_ref _ _ _ _ G)|apply (g_ks _ _ _ _ G)]. Qed.

Lemma g_same {A} fs0 b0 fs fs1 (r : resultA A) S : samefs fs fs1 -> HCg fs0 b0 fs r S -> HCg fs0 b0 fs1 r S.
Proof.
  intros Sm H P X cf0 s0 O Ar. eapply res_imp; [|apply (H P (ext_same _ _ _ _ Sm X) cf0 s0 O Ar)]. intros c (s & a & Ke & A1 & V).
  exists s, a. split; [exact Ke|]. split; [eapply arrive_same; eauto|exact V].
Qed.
Lemma g_hc {A} fs0 b0 fs (r : resultA A) S (F : A -> W -> outcome (val * W)) (V : prog -> state -> outcome (val * W) -> Prop) : HCg fs0 b0 fs r S ->
  (forall P s a, ext nohole fs P -> S P s a -> V P s (F a (world s))) ->
  HC fs0 b0 fs [] [] (fun l w => bind (r l w) (fun '(a, w) => F a w)) V.
Proof.
  intros H HV P X cf0 s0 O Ar. eapply res_bind; [apply (H P X cf0 s0 O Ar)|intros x; apply same_bind|]. intros cf (s & a & Ke & A1 & Er & Sa).
  apply res_ret. exists s. split; [exact Ke|]. left. split; [exact A1|]. rewrite Er. cbn. apply HV; auto.
Qed.
Lemma seq_g {A B} fs0 b0 fs1 b1 fs2 (r1 : resultA A) (r2 : resultA B) S1 (S1' : prog -> state -> A -> Prop) S2 :
  Grow fs0 fs1 nohole [] -> Grow fs1 fs2 nohole [] -> nactvar fs0 <= b0 -> b0 <= b1 -> HCg fs0 b0 fs1 r1 S1 -> HCg fs1 b1 fs2 r2 S2 -> LO (nactvar fs0) r2 ->
  (forall P s s' a, ext nohole fs2 P -> S1 P s a -> keep b1 s s' -> S1' P s' a) ->
  HCg fs0 b0 fs2 (pairr r1 r2) (fun P s p => S1' P s (fst p) /\ S2 P s (snd p)).
Proof.
  intros G1 G2 L1 L2 H1 H2 Lo St P X cf0 s0 O Ar. pose proof (ext_grow _ _ _ _ _ G2 X) as X1.
  eapply res_bind; [apply (H1 P X1 cf0 s0 O Ar)|intros x; unfold pairr; apply same_bind|]. intros cf (s & a & Ke & A1 & Er & Sa).
  assert (O1: okst fs1 s) by (eapply okst_grow; [exact G1|]; eapply okst_keep; eauto).
  assert (E2: r2 (reg s) (world s) = r2 (reg s0) (world s)) by (apply Lo; intros x Hx; apply Ke; lia).
  eapply res_bind; [apply (H2 P X cf s O1 A1)| |].
  - intros x Hx. unfold pairr. rewrite Er. cbn. rewrite E2 in Hx. apply same_bind. exact Hx.
  - intros cf2 (s2 & b & Ke2 & A2 & Er2 & Sb). apply res_ret. exists s2, (a, b). split; [eapply keep_trans; [exact Ke|eapply keep_le; eauto]|]. split; [exact A2|].
    split; [unfold pairr; rewrite Er; cbn; rewrite <- E2, Er2; reflexivity|]. cbn. split; [eapply St; eauto|exact Sb].
Qed.
Lemma g_imp {A} fs0 b0 fs (r : resultA A) S (S' : prog -> state -> A -> Prop) : HCg fs0 b0 fs r S -> (forall P s a, ext nohole fs P -> S P s a -> S' P s a) -> HCg fs0 b0 fs r S'.
Proof.
  intros H F P X cf0 s0 O Ar. eapply res_imp; [|apply (H P X cf0 s0 O Ar)]. intros c (s & a & Ke & A1 & Er & Sa). exists s, a. auto.
Qed.
Lemma g_map {A B} fs0 b0 fs (r : resultA A) S (f : A -> B) (S' : prog -> state -> B -> Prop) : HCg fs0 b0 fs r S -> (forall P s a, ext nohole fs P -> S P s a -> S' P s (f a)) ->
  HCg fs0 b0 fs (fun l w => bind (r l w) (fun '(a, w) => Ok (f a, w))) S'.
Proof.
  intros H F P X cf0 s0 O Ar. eapply res_bind; [apply (H P X cf0 s0 O Ar)|intros x; apply same_bind|]. intros cf (s & a & Ke & A1 & Er & Sa).
  apply res_ret. exists s, (f a). rewrite Er. cbn. auto.
Qed.
Lemma g_ext {A} fs0 b0 fs (r r' : resultA A) S : HCg fs0 b0 fs r S -> (forall s, okst fs0 s -> r (reg s) (world s) = r' (reg s) (world s)) -> HCg fs0 b0 fs r' S.
Proof. intros H X P Xp cf0 s0 O Ar. rewrite <- (X s0 O). apply (H P Xp cf0 s0 O Ar). Qed.
Lemma hc_ext fs0 b0 fs t f r r' V : HC fs0 b0 fs t f r V -> (forall s, okst fs0 s -> r (reg s) (world s) = r' (reg s) (world s)) -> HC fs0 b0 fs t f r' V.
Proof. intros H X P Xp cf0 s0 O Ar. rewrite <- (X s0 O). apply (H P Xp cf0 s0 O Ar). Qed.
Lemma inv_ext fs0 b0 fs e r r' : INV fs0 b0 fs e r -> (forall s, okst fs0 s -> r (reg s) (world s) = r' (reg s) (world s)) -> INV fs0 b0 fs e r'.
Proof.
  intros [G Ki C T] X. split; auto.
  - intros P Xp cf0 s0 O Ar. rewrite <- (X s0 O). apply (C P Xp cf0 s0 O Ar).
  - intros s0 O. rewrite <- (X s0 O). apply (T s0 O).
Qed.

(* descriptors as values *)
Lemma inv_g fs0 b0 fs e r (S : prog -> state -> val -> Prop) : INV fs0 b0 fs e r -> arrival (ek e) -> discharged (ek e) -> et e = [] -> ef e = [] ->
  (forall P s v, ext nohole fs P -> valF W E P fs e s (Ok (v, world s)) -> hast (ety e) v -> S P s v) -> HCg fs0 b0 fs r S.
Proof.
  intros I0 A D Et Ef HS P X cf0 s0 O Ar. pose proof (inv_hc _ _ _ _ _ _ _ I0 A P X cf0 s0 O Ar) as H.
  eapply res_imp; [|exact H]. intros cf (s & Ke & [[A1 V]|[J|J]]).
  - destruct (valF_ok _ _ _ _ _ _ _ A D V) as [v Ev]. exists s, v. split; [exact Ke|]. split; [exact A1|]. split; [exact Ev|]. rewrite Ev in V. apply HS; auto.
    pose proof (i_ty _ _ _ _ _ _ _ I0 s0 O v _ Ev) as T. unfold vty in T. destruct (ek e); cbn in D; try contradiction; exact T.
  - rewrite Et in J. destruct J as (j & Hj & _). cbn in Hj. lia.
  - rewrite Ef in J. destruct J as (j & Hj & _). cbn in Hj. lia.
Qed.
Definition opS (x : rk) (t : tmap) (P : prog) (s : state) (v : val) : Prop := rkval (consts P) s x = Ok v /\ hast t v.
Lemma operand_g fs0 b0 fs e r x t : nactvar fs0 <= b0 -> INV fs0 b0 fs e r -> operand e x t -> HCg fs0 b0 fs r (opS x t) /\ Grow fs0 fs nohole [] /\
  freereg fs = b0 + tmpk (nactvar fs0) x /\ (forall y, x = R y -> y < b0 + tmpk (nactvar fs0) x) /\ (forall y, x = R y -> y < nactvar fs0 \/ y = b0).
Proof.
  intros L I0 Op. assert (A: arrival (ek e) /\ discharged (ek e) /\ et e = [] /\ ef e = [] /\ ety e = t) by (destruct x; cbn in Op; [subst e|destruct Op as [-> _]]; cbn; auto).
  destruct A as (A & D & Et & Ef & Ht). split; [|split].
  - eapply inv_g; eauto. intros P s v X V Hv. rewrite Ht in Hv. split; [|exact Hv]. destruct x; cbn in Op; [subst e|destruct Op as [-> _]]; cbn in V |- *.
    + injection V as ->. reflexivity.
    + destruct V as (v' & N & V). injection V as ->. rewrite (const_at _ _ _ _ _ X N). reflexivity.
  - pose proof (inv_grow _ _ _ _ _ _ _ I0 A) as G. rewrite Et, Ef in G. exact G.
  - pose proof (i_kind _ _ _ _ _ _ _ I0) as K. unfold kindok in K. destruct x; cbn in Op; [subst e|destruct Op as [-> _]]; cbn [ek] in K; cbn [tmpk]; [|split; [lia|split; intros y Hy; discriminate Hy]].
    unfold tmp. destruct (Nat.ltb_spec r0 (nactvar fs0)); (split; [lia|split; intros y Hy; injection Hy as <-; lia]).
Qed.
Lemma exp2RK_id fs e x t : operand e x t -> exp2RK fs e = (fs, e, x).
Proof.
  destruct x; cbn; [intros ->; reflexivity|intros [-> Hk]]. unfold exp2RK. cbn [exp2val hasjumps et ef dischargevars ek]. apply Nat.leb_le in Hk. rewrite Hk. reflexivity.
Qed.
Lemma freeexps_op fs e1 e2 x1 x2 t1 t2 b : operand e1 x1 t1 -> operand e2 x2 t2 -> freereg fs = b + tmpk (nactvar fs) x1 + tmpk (nactvar fs) x2 ->
  freereg (freeexps fs e1 e2) = b /\ samefs fs (freeexps fs e1 e2).
Proof.
  intros O1 O2 F. assert (N: forall fs r, nactvar (free_reg fs r) = nactvar fs) by (intros ? ?; unfold free_reg; destruct (_ <=? _); reflexivity).
  assert (Fr: forall fs r, freereg (free_reg fs r) = freereg fs - tmp (nactvar fs) r).
  { intros f r. unfold free_reg, tmp. destruct (Nat.leb_spec (nactvar f) r), (Nat.ltb_spec r (nactvar f)); cbn; lia. }
  unfold freeexps, freeexp. destruct x1, x2; cbn in O1, O2; repeat match goal with H : _ /\ _ |- _ => destruct H end; subst e1 e2; cbn [ek tmpk] in *.
  - destruct (_ <? _); (split; [rewrite !Fr, !N; lia|eapply same_trans; apply same_free_reg]).
  - split; [rewrite !Fr; lia|apply same_free_reg].
  - split; [rewrite !Fr; lia|apply same_free_reg].
  - split; [lia|apply same_refl].
Qed.
Lemma op_keep x t b P s s' v : (forall y, x = R y -> y < b) -> keep b s s' -> opS x t P s v -> opS x t P s' v.
Proof. intros L K [H T]. split; [|exact T]. destruct x; cbn in *; [|exact H]. rewrite K by (apply L; reflexivity). exact H. Qed.

(* literals *)
Definition lit_val (k : kind) : option val :=
  match k with VNil => Some Nil | VTrue => Some (Bool true) | VFalse => Some (Bool false) | VKInt i => Some (I i) | VKFlt f => Some (F f) | _ => None end.
Lemma lit_inv fs k v t : Pre fs -> lit_val k = Some v -> litok v -> hast t v -> INV fs (freereg fs) fs (mk k [] [] t) (fun _ w => Ok (v, w)).
Proof.
  intros P0 Lv Lo Ht. apply hc_inv; cbn [ek et ef].
  - destruct k; cbn in Lv; try discriminate Lv; exact Logic.I.
  - apply grow_refl. exact P0.
  - unfold kindok. cbn [ek]. destruct k; cbn in Lv; try discriminate Lv; auto. split; [reflexivity|]. injection Lv as <-. apply Lo. reflexivity.
  - intros s0 O v' w H. injection H as <- _. unfold vty. cbn. destruct k; cbn in Lv; try discriminate Lv; exact Ht.
  - intros P X cf0 s0 O Ar. apply res_ret. exists s0. split; [apply keep_refl|]. left. split; [exact Ar|]. unfold valF. cbn [ek]. destruct k; cbn in Lv; try discriminate Lv; injection Lv as <-; reflexivity.
Qed.
Lemma g_const {A} fs0 b0 fs (v : A) S : HCg fs0 b0 fs (fun _ w => Ok (v, w)) S -> HCg fs0 b0 fs (fun _ w => Ok (v, w)) (fun P s a => S P s a /\ a = v).
Proof.
  intros H P X cf0 s0 O Ar. eapply res_imp; [|apply (H P X cf0 s0 O Ar)]. intros c (s & a & Ke & A1 & Er & Sa). exists s, a. split; [exact Ke|]. split; [exact A1|]. split; [exact Er|].
  split; [exact Sa|]. injection Er as <- _. reflexivity.
Qed.
(* the first operand, once infix has dealt with it: in place or a numeral *)
Definition first_op (e1 : expdesc) : Prop :=
  (exists x, operand e1 x (ety e1)) \/ (et e1 = [] /\ ef e1 = [] /\ exists v, lit_val (ek e1) = Some v /\ litok v /\ hast (ety e1) v).
Lemma operands_inv fs0 b0 fs1 e1 r1 fs2 e2 r2 fs3 e2' x2 fs4 e1' x1 : Pre fs0 -> nactvar fs0 <= b0 -> INV fs0 b0 fs1 e1 r1 -> first_op e1 ->
  INV fs1 (freereg fs1) fs2 e2 r2 -> LO (nactvar fs0) r2 -> exp2RK fs2 e2 = (fs3, e2', x2) -> exp2RK fs3 e1 = (fs4, e1', x1) ->
  Grow fs0 fs4 nohole [] /\ HCg fs0 b0 fs4 (pairr r1 r2) (fun P s p => opS x1 (ety e1) P s (fst p) /\ opS x2 (vty e2) P s (snd p)) /\
  operand e1' x1 (ety e1) /\ operand e2' x2 (vty e2) /\ freereg (freeexps fs4 e1' e2') = b0 /\ samefs fs4 (freeexps fs4 e1' e2').
Proof.
  intros P0 L I1 Fo I2 Lo X2 X1.
  assert (Ar: arrival (ek e1)) by (destruct Fo as [[x Ox]|(_ & _ & v & Lv & Lok & Lt)]; [destruct x; cbn in Ox; [|destruct Ox as [Ox _]]; rewrite Ox; exact Logic.I|destruct (ek e1); try discriminate Lv; exact Logic.I]).
  assert (Ej: et e1 = [] /\ ef e1 = []) by (destruct Fo as [[x Ox]|(A & B & _)]; [destruct x; cbn in Ox; [|destruct Ox as [Ox _]]; rewrite Ox; auto|auto]).
  assert (G1: Grow fs0 fs1 nohole []) by (pose proof (inv_grow _ _ _ _ _ _ _ I1 Ar) as G; destruct Ej as [-> ->] in G; exact G).
  pose proof (grow_pre _ _ _ _ G1) as P1. pose proof (g_nact _ _ _ _ G1) as N1.
  assert (Fb: b0 <= freereg fs1).
  { pose proof (i_kind _ _ _ _ _ _ _ I1) as K. unfold kindok in K. destruct Fo as [[x Ox]|(_ & _ & v & Lv & Lok & Lt)]; [destruct x; cbn in Ox; [|destruct Ox as [Ox _]]; rewrite Ox in K; cbn in K; lia|destruct (ek e1); try discriminate Lv; lia]. }
  destruct (exp2RK_inv W E fs1 (freereg fs1) fs2 e2 r2 fs3 e2' x2 P1 ltac:(lia) I2 X2) as [I3 O2].
  destruct (operand_g fs1 (freereg fs1) fs3 e2' r2 x2 _ ltac:(lia) I3 O2) as (H2 & G2 & F2 & Y2 & Z2). rewrite N1 in *.
  pose proof (grow_trans _ _ _ _ _ _ P0 G1 G2) as G3. cbn [app] in G3. pose proof (grow_pre _ _ _ _ G3) as P3.
  destruct Fo as [[x Ox]|(_ & _ & v & Lv & Lok & Lt)].
  - (* in place *)
    rewrite (exp2RK_id _ _ _ _ Ox) in X1. injection X1 as <- <- <-.
    destruct (operand_g fs0 b0 fs1 e1 r1 x _ L I1 Ox) as (H1 & _ & F1 & Y1 & Z1).
    split; [exact G3|]. split.
    + apply (seq_g fs0 b0 fs1 (freereg fs1) fs3 r1 r2 (opS x (ety e1)) (opS x (ety e1)) (opS x2 (vty e2))); auto.
      intros P s s' a Xp Sa Ke. eapply op_keep; [|exact Ke|exact Sa]. intros y Hy. rewrite F1. apply Y1. exact Hy.
    + split; [exact Ox|]. split; [exact O2|]. eapply freeexps_op; eauto. rewrite (g_nact _ _ _ _ G3). lia.
  - (* a literal *)
    assert (Fb0: freereg fs1 = b0) by (pose proof (i_kind _ _ _ _ _ _ _ I1) as K; unfold kindok in K; destruct (ek e1); try discriminate Lv; tauto).
    assert (Dk: discharged (ek e1)) by (destruct (ek e1); try discriminate Lv; exact Logic.I).
    destruct Ej as [Et Ef].
    assert (H1: HCg fs0 b0 fs1 r1 (fun P s a => a = v /\ hast (ety e1) v)).
    { eapply inv_g; eauto. intros P s a X V Ha. assert (a = v) as -> by (unfold valF in V; destruct (ek e1); try discriminate Lv; injection Lv as <-; injection V as ->; reflexivity). auto. }
    assert (I4: INV fs3 (freereg fs3) fs3 e1 (fun _ w => Ok (v, w))).
    { destruct e1 as [k1 t1 f1 ty1]. cbn in *. subst t1 f1. apply lit_inv; auto. }
    pose proof (g_nact _ _ _ _ G3) as N3. assert (Ht: vty e1 = ety e1) by (unfold vty; destruct (ek e1); try discriminate Lv; reflexivity).
    destruct (exp2RK_inv W E fs3 (freereg fs3) fs3 e1 _ fs4 e1' x1 P3 ltac:(lia) I4 X1) as [I5 O1]. rewrite Ht in O1.
    destruct (operand_g fs3 (freereg fs3) fs4 e1' _ x1 _ ltac:(lia) I5 O1) as (H4 & G4 & F4 & Y4 & Z4). rewrite N3 in *.
    pose proof (grow_trans _ _ _ _ _ _ P0 G3 G4) as G5. cbn [app] in G5.
    split; [exact G5|]. split.
    + assert (H12: HCg fs0 b0 fs3 (pairr r1 r2) (fun P s p => (fst p = v /\ hast (ety e1) v) /\ opS x2 (vty e2) P s (snd p))).
      { apply (seq_g fs0 b0 fs1 (freereg fs1) fs3 r1 r2 (fun P s a => a = v /\ hast (ety e1) v) (fun P s a => a = v /\ hast (ety e1) v) (opS x2 (vty e2))); auto. }
      assert (H': HCg fs0 b0 fs4 (pairr (pairr r1 r2) (fun _ w => Ok (v, w))) (fun P s p => (fst (fst p) = v /\ opS x2 (vty e2) P s (snd (fst p))) /\ opS x1 (ety e1) P s (snd p) /\ snd p = v)).
      { apply (seq_g fs0 b0 fs3 (freereg fs3) fs4 (pairr r1 r2) (fun _ w => Ok (v, w)) _ (fun P s p => fst p = v /\ opS x2 (vty e2) P s (snd p)) (fun P s a => opS x1 (ety e1) P s a /\ a = v) G3 G4 L ltac:(lia) H12).
        - apply g_const. exact H4.
        - intros l l' w _. reflexivity.
        - intros P s s' [a b] Xp [[Ha _] Sb] Ke. split; [exact Ha|]. eapply op_keep; [|exact Ke|exact Sb]. intros y Hy. rewrite F2. apply Y2. exact Hy. }
      eapply g_ext; [eapply (g_map _ _ _ _ _ fst); [exact H'|]|].
      * intros P s [[a b] c] X ((-> & Sb) & Sa & Hc). cbn in *. subst c. auto.
      * intros s O. unfold pairr. destruct (r1 (reg s) (world s)) as [[a w1]| | |]; cbn; auto. destruct (r2 (reg s) w1) as [[b w2]| | |]; cbn; auto.
    + split; [exact O1|]. split; [exact O2|]. eapply freeexps_op; eauto. rewrite (g_nact _ _ _ _ G5). lia.
Qed.
End seq.
