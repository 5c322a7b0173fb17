(* Putting expressions into registers and operands. *)
Require Import ZArith List Bool Arith Lia.
From Coq Require Import Floats.SpecFloat.
From Verif Require Import Base Float_model Op_model Op_spec Op_proofs Gen_model Gen_spec Gen_facts Gen_run Gen_inv Gen_ops.
Import ListNotations.
Local Open Scope nat_scope.

Section put.
Variable W : Type.
Variable E : env W.
Notation step := (step W E).
Notation config := (config W).
Notation state := (state W).
Notation Res := (Res W E).
Notation steps := (steps W E).
Notation INV := (INV W E).
Notation HC := (HC W E).
Notation TY := (TY W).

Lemma exp2reg_inv fs0 b0 fs e r fs1 fs2 e2 : Pre fs0 -> nactvar fs0 <= b0 -> INV fs0 b0 fs e r -> discharged (ek e) -> samefs fs fs1 -> freereg fs1 = S b0 ->
  exp2reg fs1 e b0 = (fs2, e2) -> INV fs0 b0 fs2 e2 r /\ e2 = mk (VNonreloc b0) [] [] (ety e).
Proof.
  intros P0 L I0 D Sf Fr. rewrite exp2reg_eq. destruct (discharge2reg fs1 e b0) as [fsx ex] eqn:Dx.
  destruct (d2r W E fs0 b0 fs e r fs1 fsx ex P0 L I0 D Sf Fr Dx) as [((p & Ke) & -> & ->)|[I1 ->]].
  - intros F. eapply finish_jmp; eauto.
  - intros F. assert (Fx: freereg fsx = S b0) by (pose proof (i_kind _ _ _ _ _ _ _ I1) as K; unfold kindok in K; cbn [ek with_k] in K; lia).
    destruct (finish_nonreloc W E fs0 b0 fsx _ r fs2 e2 P0 I1 Fx eq_refl F) as [I2 ->]. split; [exact I2|reflexivity].
Qed.
Lemma freeexp_base n b0 fs e : n <= b0 -> nactvar fs = n -> kindok n b0 fs e -> discharged (ek e) -> freereg (freeexp fs e) = b0 /\ samefs fs (freeexp fs e).
Proof.
  intros L N Ki D. unfold kindok in Ki. unfold freeexp. destruct (ek e); cbn in D; try contradiction; try (split; [intuition lia|apply same_refl]).
  unfold free_reg. rewrite N. split; [|destruct (_ <=? _); [apply same_free|apply same_refl]]. destruct (Nat.leb_spec n r); cbn; lia.
Qed.
Lemma exp2nextreg_inv fs0 b0 fs e r fs2 e2 : Pre fs0 -> nactvar fs0 <= b0 -> INV fs0 b0 fs e r ->
  exp2nextreg fs e = (fs2, e2) -> INV fs0 b0 fs2 e2 r /\ e2 = mk (VNonreloc b0) [] [] (vty e) /\ freereg fs2 = S b0.
Proof.
  intros P0 L I0. unfold exp2nextreg. destruct (dischargevars fs e) as [fsx ex] eqn:Dx.
  destruct (dischargevars_inv W E fs0 b0 fs e r fsx ex P0 I0 Dx) as (I1 & D1 & Ty & _).
  destruct (freeexp_base (nactvar fs0) b0 fsx ex L (g_nact _ _ _ _ (i_grow _ _ _ _ _ _ _ I1)) (i_kind _ _ _ _ _ _ _ I1) D1) as [Fb Sf].
  cbv zeta. intros H. assert (Hb: pred (freereg (reserve (freeexp fsx ex))) = b0) by (unfold reserve; cbn; exact Fb). rewrite Hb in H.
  assert (Sr: samefs fsx (reserve (freeexp fsx ex))) by (eapply same_trans; [exact Sf|apply same_free]).
  destruct (exp2reg_inv fs0 b0 fsx ex r (reserve (freeexp fsx ex)) fs2 e2 P0 L I1 D1 Sr) as [I2 E2]; [|exact H|].
  - unfold reserve. cbn. rewrite Fb. reflexivity.
  - split; [exact I2|]. assert (ety ex = vty e) as He by (rewrite <- Ty; unfold vty; destruct (ek ex); cbn in D1; try contradiction; reflexivity).
    rewrite E2, He. split; [reflexivity|]. pose proof (i_kind _ _ _ _ _ _ _ I2) as K. rewrite E2 in K. unfold kindok in K. cbn [ek] in K. lia.
Qed.
Lemma d2any_inv fs0 b0 fs e r fs2 e2 : Pre fs0 -> nactvar fs0 <= b0 -> INV fs0 b0 fs e r -> discharged (ek e) -> (forall p, ek e <> VJmp p) ->
  discharge2anyreg fs e = (fs2, e2) -> INV fs0 b0 fs2 e2 r /\ exists x, e2 = with_k e (VNonreloc x) /\ (ek e = VNonreloc x \/ x = b0).
Proof.
  intros P0 L I0 D Nj. unfold discharge2anyreg.
  assert (G: discharge2reg (reserve fs) e (freereg fs) = (fs2, e2) -> freereg fs = b0 -> INV fs0 b0 fs2 e2 r /\ exists x, e2 = with_k e (VNonreloc x) /\ (ek e = VNonreloc x \/ x = b0)).
  { intros H Fb. rewrite Fb in H. destruct (d2r W E fs0 b0 fs e r (reserve fs) fs2 e2 P0 L I0 D) as [((p & Ke) & _)|[I1 ->]]; auto.
    - apply same_free.
    - unfold reserve. cbn. lia.
    - exfalso. eapply Nj. exact Ke.
    - split; [exact I1|]. exists b0. auto. }
  pose proof (i_kind _ _ _ _ _ _ _ I0) as K. unfold kindok in K.
  destruct (ek e) eqn:Ke; cbn in D; try contradiction; try (intros H; apply G; [exact H|intuition]).
  intros H; injection H as <- <-. split; [exact I0|]. exists r0. rewrite <- Ke. destruct e; cbn. auto.
Qed.
Lemma exp2anyreg_inv fs0 b0 fs e r fs2 e2 : Pre fs0 -> nactvar fs0 <= b0 -> INV fs0 b0 fs e r ->
  exp2anyreg fs e = (fs2, e2) -> INV fs0 b0 fs2 e2 r /\ exists x, e2 = mk (VNonreloc x) [] [] (vty e).
Proof.
  intros P0 L I0. unfold exp2anyreg. destruct (dischargevars fs e) as [fsx ex] eqn:Dx.
  destruct (dischargevars_inv W E fs0 b0 fs e r fsx ex P0 I0 Dx) as (I1 & D1 & Ty & _).
  assert (He: ety ex = vty e) by (rewrite <- Ty; unfold vty; destruct (ek ex); cbn in D1; try contradiction; reflexivity).
  assert (G: exp2nextreg fsx ex = (fs2, e2) -> INV fs0 b0 fs2 e2 r /\ exists x, e2 = mk (VNonreloc x) [] [] (vty e)).
  { intros H. destruct (exp2nextreg_inv fs0 b0 fsx ex r fs2 e2 P0 L I1 H) as (I2 & -> & _). split; [exact I2|]. exists b0. rewrite Ty. reflexivity. }
  destruct (ek ex) eqn:Ke; auto. destruct (hasjumps ex) eqn:Hj; cbn [negb].
  - pose proof (g_nact _ _ _ _ (i_grow _ _ _ _ _ _ _ I1)) as Na. rewrite Na. destruct (Nat.leb_spec (nactvar fs0) r0); auto.
    pose proof (i_kind _ _ _ _ _ _ _ I1) as K. unfold kindok in K. rewrite Ke in K. destruct K as [K|[-> Fr]]; [lia|].
    intros H1. destruct (exp2reg_inv fs0 b0 fsx ex r fsx fs2 e2 P0 L I1) as [I2 E2]; auto.
    + rewrite Ke. exact Logic.I.
    + apply same_refl.
    + split; [exact I2|]. exists b0. rewrite E2, He. reflexivity.
  - intros H; injection H as <- <-. split; [exact I1|]. exists r0. destruct ex as [k t f ty]. cbn in *. unfold hasjumps in Hj. cbn in Hj. destruct t; [|discriminate]. destruct f; [|discriminate]. subst. reflexivity.
Qed.
Lemma exp2val_inv fs0 b0 fs e r fs2 e2 : Pre fs0 -> nactvar fs0 <= b0 -> INV fs0 b0 fs e r ->
  exp2val fs e = (fs2, e2) -> INV fs0 b0 fs2 e2 r /\ discharged (ek e2) /\ et e2 = [] /\ ef e2 = [] /\ ety e2 = vty e.
Proof.
  intros P0 L I0. unfold exp2val. destruct (hasjumps e) eqn:Hj; intros H.
  - destruct (exp2anyreg_inv fs0 b0 fs e r fs2 e2 P0 L I0 H) as (I1 & x & ->). split; [exact I1|]. cbn. auto.
  - destruct (dischargevars_inv W E fs0 b0 fs e r fs2 e2 P0 I0 H) as (I1 & D1 & Ty & Et & Ef). unfold hasjumps in Hj. destruct (et e); [|discriminate]. destruct (ef e); [|discriminate].
    split; [exact I1|]. split; [exact D1|]. split; [exact Et|]. split; [exact Ef|]. rewrite <- Ty. unfold vty; destruct (ek e2); cbn in D1; try contradiction; reflexivity.
Qed.
(* an operand *)
Definition operand (e : expdesc) (x : rk) (ty : tmap) : Prop :=
  match x with R r => e = mk (VNonreloc r) [] [] ty | K k => e = mk (VK k) [] [] ty /\ k <= MAXINDEXRK end.
Lemma constant_inv fs0 b0 fs e r v fs' k : INV fs0 b0 fs e r -> arrival (ek e) -> freereg fs = b0 -> vty e = ety e -> litok v ->
  (forall P s o, valF W E P fs e s o -> o = Ok (v, world s)) -> addk fs v = (fs', k) -> INV fs0 b0 fs' (with_k e (VK k)) r.
Proof.
  intros I0 A Fr Vt Lv Hv Ak. pose proof (inv_grow _ _ _ _ _ _ _ I0 A) as G. pose proof (inv_hc _ _ _ _ _ _ _ I0 A) as Hc.
  destruct (addk_spec fs v fs' k (g_kok _ _ _ _ G) Lv Ak) as (l & -> & N & Kk).
  apply hc_inv; cbn [ek et ef with_k].
  - exact Logic.I.
  - apply grow_ks; auto.
  - unfold kindok. cbn [ek with_k]. split; [exact Fr|]. cbn. apply nth_lt in N. exact N.
  - pose proof (i_ty _ _ _ _ _ _ _ I0) as T. rewrite Vt in T. exact T.
  - apply hc_ks. eapply hc_imp; [exact Hc|]. intros P s s0 X O Kp V. unfold valF. cbn [ek with_k]. exists v. split; [exact N|eapply Hv; exact V].
Qed.
Lemma exp2RK_inv fs0 b0 fs e r fs2 e2 x : Pre fs0 -> nactvar fs0 <= b0 -> INV fs0 b0 fs e r ->
  exp2RK fs e = (fs2, e2, x) -> INV fs0 b0 fs2 e2 r /\ operand e2 x (vty e).
Proof.
  intros P0 L I0. unfold exp2RK. destruct (exp2val fs e) as [fsx ex] eqn:Vx. destruct (exp2val_inv fs0 b0 fs e r fsx ex P0 L I0 Vx) as (I1 & D1 & Et & Ef & Ty).
  assert (Vt: forall y, vty (with_k ex (VK y)) = vty e) by (intros y; exact Ty).
  assert (Inreg: forall fsy ey, INV fs0 b0 fsy ey r -> vty ey = vty e -> (let '(fs, e) := exp2anyreg fsy ey in (fs, e, R (reg_of e))) = (fs2, e2, x) -> INV fs0 b0 fs2 e2 r /\ operand e2 x (vty e)).
  { intros fsy ey Iy Ey H. destruct (exp2anyreg fsy ey) as [fz ez] eqn:Az. injection H as <- <- <-. destruct (exp2anyreg_inv fs0 b0 fsy ey r fz ez P0 L Iy Az) as (I2 & y & ->). split; [exact I2|]. cbn. rewrite Ey. reflexivity. }
  assert (Vk: forall fsy k, INV fs0 b0 fsy (with_k ex (VK k)) r -> (if k <=? MAXINDEXRK then (fsy, with_k ex (VK k), K k) else let '(fs, e) := exp2anyreg fsy (with_k ex (VK k)) in (fs, e, R (reg_of e))) = (fs2, e2, x) -> INV fs0 b0 fs2 e2 r /\ operand e2 x (vty e)).
  { intros fsy k Iy H. destruct (Nat.leb_spec k MAXINDEXRK); [|eapply Inreg; eauto]. injection H as <- <- <-. split; [exact Iy|]. cbn [operand]. split; [|assumption]. unfold with_k. rewrite Et, Ef, Ty. reflexivity. }
  assert (Cst: forall v, arrival (ek ex) -> freereg fsx = b0 -> vty ex = ety ex -> litok v -> (forall P s o, valF W E P fsx ex s o -> o = Ok (v, world s)) ->
    (let '(fs, k) := addk fsx v in if k <=? MAXINDEXRK then (fs, with_k ex (VK k), K k) else let '(fs, e) := exp2anyreg fs (with_k ex (VK k)) in (fs, e, R (reg_of e))) = (fs2, e2, x) -> INV fs0 b0 fs2 e2 r /\ operand e2 x (vty e)).
  { intros v A Fr Vt' Lv Hv H. destruct (addk fsx v) as [fsy k] eqn:Ak. eapply Vk; [|exact H]. eapply constant_inv; eauto. }
  pose proof (i_kind _ _ _ _ _ _ _ I1) as Ki. unfold kindok in Ki.
  assert (Gen: vty ex = vty e) by (unfold vty at 1; rewrite Ty; destruct (ek ex); cbn in D1; try contradiction; reflexivity).
  cbv zeta. destruct (ek ex) eqn:Ke; cbn in D1; try contradiction; try (apply Inreg; assumption);
    try (apply Vk; replace (with_k ex (VK k)) with ex by (rewrite <- Ke; destruct ex; reflexivity); exact I1);
    try (match type of Ki with _ /\ _ => destruct Ki as [Ki Lo] end);
    (apply Cst; [exact Logic.I|exact Ki|unfold vty; rewrite Ke; reflexivity|intros f0 Hf; try discriminate Hf; try (injection Hf as <-; exact Lo)
                |intros P s o V; unfold valF in V; rewrite Ke in V; exact V]).
Qed.
End put.
