(* The operators. *)
Require Import ZArith List Bool Arith Lia.
From Coq Require Import Floats.SpecFloat.
From Verif Require Import Base Float_model Op_model Op_spec Op_proofs Gen_model Gen_spec Gen_facts Gen_run Gen_inv Gen_ops Gen_put Gen_cond Gen_not Gen_seq.
Import ListNotations.
Local Open Scope nat_scope.

Section opr.
Variable W : Type.
Variable E : env W.
Notation step := (step W E).
Notation config := (config W).
Notation state := (state W).
Notation Res := (Res W E).
Notation steps := (steps W E).
Notation INV := (INV W E).
Notation HC := (HC W E).
Notation HCg := (HCg W E).
Notation TY := (TY W).
Notation keep := (keep W).
Notation okst := (okst W).
Notation arrive := (arrive W).
Notation result := (result W).
Notation LO := (LO W).
Notation pairr := (pairr W).
Notation exec_bin := (exec_bin W (fmod E) (fpow E) (tmbin E)).
Notation generic := (generic W (fmod E) (fpow E) (tmbin E)).
Definition then1 (r : result) (F : val -> W -> outcome (val * W)) : result := fun l w => bind (r l w) (fun '(v, w) => F v w).
Definition then2 (r1 r2 : result) (F : val -> val -> W -> outcome (val * W)) : result :=
  fun l w => bind (r1 l w) (fun '(v, w) => bind (r2 l w) (fun '(v', w) => F v v' w)).
Lemma ty_then1 fs0 t r F t' : TY fs0 t r -> (forall v w v' w', hast t v -> F v w = Ok (v', w') -> hast t' v') -> TY fs0 t' (then1 r F).
Proof.
  intros T H s O v w. unfold then1. pose proof (T s O) as T0. destruct (r (reg s) (world s)) as [[a w1]| | |]; cbn; try discriminate. apply H. eapply T0; eauto.
Qed.
Lemma ty_then2 fs0 t1 t2 r1 r2 F t' : TY fs0 t1 r1 -> TY fs0 t2 r2 -> (forall v v2 w v' w', hast t1 v -> hast t2 v2 -> F v v2 w = Ok (v', w') -> hast t' v') -> TY fs0 t' (then2 r1 r2 F).
Proof.
  intros T1 T2 H s O v w. unfold then2. pose proof (T1 s O) as T0. destruct (r1 (reg s) (world s)) as [[a w1]| | |]; cbn; try discriminate.
  pose proof (T2 (mkst (reg s) w1) O) as T3. cbn in T3. destruct (r2 (reg s) w1) as [[b w2]| | |]; cbn; try discriminate. apply H; [eapply T0|eapply T3]; reflexivity.
Qed.
Lemma ty_grow fs0 fs h l t r : Grow fs0 fs h l -> TY fs t r -> TY fs0 t r.
Proof. intros G T s O. apply T. eapply okst_grow; eauto. Qed.

(* an operand in a register, released *)
Lemma anyreg_g fs0 b0 fs e r fs1 e1 : Pre fs0 -> nactvar fs0 <= b0 -> INV fs0 b0 fs e r -> exp2anyreg fs e = (fs1, e1) ->
  exists x, e1 = mk (VNonreloc x) [] [] (vty e) /\ HCg fs0 b0 (freeexp fs1 e1) r (opS W (R x) (vty e)) /\ Grow fs0 (freeexp fs1 e1) nohole [] /\ freereg (freeexp fs1 e1) = b0.
Proof.
  intros P0 L I0 X. destruct (exp2anyreg_inv W E fs0 b0 fs e r fs1 e1 P0 L I0 X) as (I1 & x & He). exists x. split; [exact He|].
  destruct (operand_g W E fs0 b0 fs1 e1 r (R x) (vty e) L I1 He) as (H & G & _).
  destruct (freeexp_base (nactvar fs0) b0 fs1 e1 L (g_nact _ _ _ _ G) (i_kind _ _ _ _ _ _ _ I1)) as [F S]; [rewrite He; exact Logic.I|].
  split; [eapply g_same; eauto|]. split; [eapply grow_same; eauto|exact F].
Qed.
Lemma codeunexpval_inv fs0 b0 fs e r o fs' e' : Pre fs0 -> nactvar fs0 <= b0 -> plain_numbers W (tmbin E) (tmun E) -> INV fs0 b0 fs e r -> codeunexpval fs o e = (fs', e') ->
  INV fs0 b0 fs' e' (then1 r (unary W E (UArith o))) /\ exists p, e' = mk (VReloc p) [] [] (snd (codeun o (vty e))) /\ forall op, nth_error (code fs') p = Some (Val None op) -> forall b c, op <> OConcat b c.
Proof.
  intros P0 L PN I0. unfold codeunexpval. destruct (exp2anyreg fs e) as [fs1 e1] eqn:X. destruct (anyreg_g _ _ _ _ _ _ _ P0 L I0 X) as (x & He & H & G & F).
  rewrite He in *. cbn [reg_of ek ety with_k with_ty et ef]. destruct (codeun o (vty e)) as [oc ty] eqn:Cu. intros H1. injection H1 as <- <-.
  assert (Et: oc = fst (codeun o (vty e)) /\ ty = snd (codeun o (vty e))) by (rewrite Cu; auto). destruct Et as [Eo Et]. cbn [snd]. split.
  - apply emit_reloc; auto.
    + eapply g_hc; [exact H|]. intros P s a Xp [Rk Ht]. left. cbn in *. injection Rk as ->. rewrite Eo. apply (emitted_un W (tmun E)). exact Ht.
    + discriminate.
    + rewrite Et. eapply ty_then1; [apply (i_ty _ _ _ _ _ _ _ I0)|]. intros v w v' w' Hv. apply (generic_un_type W (tmbin E) (tmun E)); auto.
  - eexists. split; [reflexivity|]. intros op Hop. rewrite (emit_nth _ _ (grow_pre _ _ _ _ G)) in Hop. injection Hop as <-. discriminate.
Qed.

(* a conversion in place *)
Lemma emit_conv fs0 b0 fs r c ty : Pre fs0 -> nactvar fs0 <= b0 -> INV fs0 b0 fs (mk (VNonreloc b0) [] [] ty) r ->
  INV fs0 b0 (emit fs (Conv b0 c)) (mk (VNonreloc b0) [] [] (conv_ty c)) (then1 r (unary W E (UAssert c))).
Proof.
  intros P0 L I0. destruct (operand_g W E fs0 b0 fs _ r (R b0) ty L I0 eq_refl) as (H & G & F & _). pose proof (grow_pre _ _ _ _ G) as P1.
  apply hc_inv; cbn [ek et ef].
  - exact Logic.I.
  - apply grow_emit; auto; [discriminate|intros p []].
  - right. split; [reflexivity|]. unfold emit. cbn. cbn in F. unfold tmp in F. destruct (Nat.ltb_spec b0 (nactvar fs0)); lia.
  - cbn. eapply ty_then1; [apply (i_ty _ _ _ _ _ _ _ I0)|]. intros v w v' w' _. cbn. destruct (do_conv c v) eqn:D; cbn; try discriminate. intros Q; injection Q as <- _.
    destruct c; cbn in D.
    + destruct (tointns v) as [[z|]| | |]; cbn in D; try discriminate D. injection D as <-. reflexivity.
    + destruct (tonumberns v); try discriminate D. injection D as <-. reflexivity.
    + destruct v; try discriminate D; injection D as <-; reflexivity.
    + destruct v; try discriminate D; injection D as <-; reflexivity.
    + destruct v; try discriminate D; injection D as <-; reflexivity.
    + destruct v; try discriminate D; injection D as <-; reflexivity.
    + destruct v; try discriminate D; injection D as <-; reflexivity.
  - intros P X cf0 s0 O Ar. assert (X': ext nohole fs P) by (eapply ext_refines; [exact X|apply refines_emit; [exact P1|intros p []]|exists []; rewrite app_nil_r; reflexivity]).
    eapply res_bind; [apply (H P X' cf0 s0 O Ar)|intros x; apply same_bind|]. intros cf (s & a & Ke & A1 & Er & [Rk Ht]).
    cbn in Rk. injection Rk as <-. eapply res_steps; [eapply emit_run; eauto; intros p []|].
    assert (Tx: nth_error (text P) (pc fs) = Some (Conv b0 c)) by (eapply text_fixed; [exact X|apply emit_nth; exact P1|exact Logic.I|intros []]).
    unfold then1. rewrite Er. cbn. destruct (do_conv c (reg s b0)) as [v| | |] eqn:D; cbn.
    + eapply res_steps; [apply steps_one; unfold Gen_model.step; rewrite Tx, D; reflexivity|]. apply res_ret. exists (setr s b0 v (world s)).
      split; [apply keep_setr; auto|]. left. split; [apply arrive_pc; rewrite pc_emit; auto|]. cbn. rewrite Nat.eqb_refl. reflexivity.
    + apply res_fail. unfold Gen_model.step. rewrite Tx, D. reflexivity.
    + apply res_fail. unfold Gen_model.step. rewrite Tx, D. exact Logic.I.
    + apply res_fail. unfold Gen_model.step. rewrite Tx, D. exact Logic.I.
Qed.
Lemma exp2anyreg_reloc fs p ty ty' fs1 e1 : exp2anyreg fs (mk (VReloc p) [] [] ty) = (fs1, e1) ->
  exists e2, exp2nextreg fs (mk (VReloc p) [] [] ty') = (fs1, e2) /\ e1 = with_ty e2 ty.
Proof. intros H. cbn in H |- *. injection H as <- <-. eexists. split; reflexivity. Qed.
Definition rlen (n : nat) (lt ut : nat -> tmap) (tl : bool) (r : result) : result :=
  then1 r (fun v w => if tl then bind (lenof E v w) (fun '(v, w) => bind (do_conv CInt v) (fun v => Ok (v, w))) else lenof E v w).
Lemma codelen_inv n lt ut fs0 b0 fs e r fs' e' : Pre fs0 -> nactvar fs0 <= b0 -> (forall v w r w', hast T_LEN v -> lenof E v w = Ok (r, w') -> hast T_INT r) ->
  INV fs0 b0 fs e r -> codelen fs e = (fs', e') ->
  INV fs0 b0 fs' e' (rlen n lt ut (table_len (vty e)) r) /\ ety e' = len_ty (vty e) /\ et e' = [] /\ ef e' = [] /\
  ((ek e' = VNonreloc b0) \/ exists p, ek e' = VReloc p /\ forall op, nth_error (code fs') p = Some (Val None op) -> forall b c, op <> OConcat b c).
Proof.
  intros P0 L PL I0. unfold codelen. destruct (exp2anyreg fs e) as [fs1 e1] eqn:X. destruct (anyreg_g _ _ _ _ _ _ _ P0 L I0 X) as (x & He & H & G & F).
  rewrite He in *. cbn [reg_of ek ety with_k with_ty et ef]. set (fs2 := freeexp fs1 (mk (VNonreloc x) [] [] (vty e))) in *. cbv zeta. cbn [with_k with_ty et ef ek ety reg_of].
  assert (Q: forall ty, TY fs0 ty (then1 r (lenof E)) -> INV fs0 b0 (emit fs2 (Val None (OLen x))) (mk (VReloc (pc fs2)) [] [] ty) (then1 r (lenof E))).
  { intros ty T. apply emit_reloc; auto; [|discriminate]. eapply g_hc; [exact H|]. intros P s a Xp [Rk Ht]. left. cbn in *. injection Rk as ->. reflexivity. }
  assert (NC: forall op, nth_error (code (emit fs2 (Val None (OLen x)))) (pc fs2) = Some (Val None op) -> forall b c, op <> OConcat b c).
  { intros op Hop. rewrite (emit_nth _ _ (grow_pre _ _ _ _ G)) in Hop. injection Hop as <-. discriminate. }
  unfold rlen, table_len, len_ty. destruct (within (vty e) T_LEN) eqn:W1.
  - intros H1; injection H1 as <- <-. cbn [negb andb ety]. split; [|split; [|split; [reflexivity|split; [reflexivity|right; eexists; split; [reflexivity|exact NC]]]]].
    + apply Q. eapply ty_then1; [apply (i_ty _ _ _ _ _ _ _ I0)|]. intros v w v' w' Hv. apply PL. eapply within_spec; eauto.
    + assert (within (vty e) (Z.lor T_LEN T_TAB) = true) as ->; [|reflexivity]. unfold within in *. apply Z.eqb_eq in W1. apply Z.eqb_eq. rewrite Z.lnot_lor, Z.land_assoc, W1. apply Z.land_0_l.
  - cbn [negb andb]. destruct (within (vty e) (Z.lor T_LEN T_TAB)) eqn:W2.
    + change (with_k (mk (VNonreloc x) [] [] (vty e)) (VReloc (pc fs2))) with (mk (VReloc (pc fs2)) [] [] (vty e)).
      destruct (exp2anyreg (emit fs2 (Val None (OLen x))) (mk (VReloc (pc fs2)) [] [] (vty e))) as [fs3 e3] eqn:X3.
      destruct (exp2anyreg_reloc _ _ _ T_ANY _ _ X3) as (e4 & X4 & ->).
      assert (I2: INV fs0 b0 (emit fs2 (Val None (OLen x))) (mk (VReloc (pc fs2)) [] [] T_ANY) (then1 r (lenof E))) by (apply Q; intros s O v w _; apply hast_any).
      destruct (exp2nextreg_inv W E fs0 b0 _ _ _ fs3 e4 P0 L I2 X4) as (I3 & -> & F3).
      intros H1. injection H1 as <- <-. cbn [with_ty ety et ef ek reg_of]. split; [|auto].
      pose proof (emit_conv fs0 b0 fs3 (then1 r (lenof E)) CInt T_ANY P0 L I3) as I4. eapply inv_ext; [exact I4|].
      intros s O. unfold then1. destruct (r (reg s) (world s)) as [[a w1]| | |]; reflexivity.
    + intros H1; injection H1 as <- <-. cbn [ety]. split; [|split; [reflexivity|split; [reflexivity|split; [reflexivity|right; eexists; split; [reflexivity|exact NC]]]]]. apply Q. intros s O v w _. apply hast_any.
Qed.

(* binary operators *)
Lemma signed_bad x : ~ is_s64 x -> c_signed x = UB.
Proof.
  intros H. unfold c_signed. unfold is_s64 in H. destruct (Z.leb_spec minint x), (Z.leb_spec x maxint); cbn; auto; exfalso; apply H; lia.
Qed.
Lemma emitted_or o t1 t2 a b w : hast t1 a -> hast t2 b ->
  let '(oc, sw, _) := codebin o t1 t2 in let '(x, y) := operands sw a b in
  exec_bin oc x y w = generic o a b w \/
  ((exists i j, x = I i /\ y = I j /\ match oc with ADDII => ~ is_s64 (i + j) | SUBII => ~ is_s64 (i - j) | MULII => ~ is_s64 (i * j) | _ => False end) /\ exec_bin oc x y w = UB).
Proof.
  intros H1 H2. assert (D: in_range o a b \/ exists x y, a = I x /\ b = I y /\ ((o = Add /\ ~ is_s64 (x + y)) \/ (o = Sub /\ ~ is_s64 (x - y)) \/ (o = Mul /\ ~ is_s64 (x * y)))%Z).
  { assert (Dec: forall z, {is_s64 z} + {~ is_s64 z}) by (intros z; unfold is_s64; destruct (Z_le_dec minint z), (Z_le_dec z maxint); [left|right|right|right]; lia).
    unfold in_range. destruct a as [| |[x|x]| | | | | | |]; auto. destruct b as [| |[y|y]| | | | | | |]; auto.
    destruct o; auto; [destruct (Dec (x + y)%Z)|destruct (Dec (x - y)%Z)|destruct (Dec (x * y)%Z)]; auto; right; exists x, y; auto 10. }
  destruct D as [R|(x & y & -> & -> & D)].
  - pose proof (emitted W (fmod E) (fpow E) (tmbin E) o t1 t2 a b w H1 H2 R) as Em. destruct (codebin o t1 t2) as [[oc sw] ty]. destruct (operands sw a b). left. exact Em.
  - assert (Nf: forall t z, hast t (I z) -> Z.eqb t T_FLT = false) by (intros t z Hz; apply Z.eqb_neq; intros ->; discriminate Hz).
    destruct D as [[-> N]|[[-> N]|[-> N]]]; cbn [codebin]; unfold gen_arith; rewrite (Nf _ _ H1), (Nf _ _ H2); destruct (Z.eqb t1 T_INT); try (left; reflexivity); destruct (Z.eqb t2 T_INT); try (left; reflexivity);
      right; (split; [exists x, y; auto|]); cbn; unfold ii, signed, done; cbn; rewrite signed_bad by exact N; reflexivity.
Qed.
Lemma codebinexpval_inv fs0 b0 fs1 e1 r1 fs2 e2 r2 o fs' e' : Pre fs0 -> nactvar fs0 <= b0 -> plain_numbers W (tmbin E) (tmun E) -> INV fs0 b0 fs1 e1 r1 -> first_op e1 ->
  INV fs1 (freereg fs1) fs2 e2 r2 -> LO (nactvar fs0) r2 -> codebinexpval fs2 o e1 e2 = (fs', e') ->
  INV fs0 b0 fs' e' (then2 r1 r2 (generic o)) /\ exists p, e' = mk (VReloc p) [] [] (snd (codebin o (ety e1) (vty e2))) /\ forall op, nth_error (code fs') p = Some (Val None op) -> forall b c, op <> OConcat b c.
Proof.
  intros P0 L PN I1 Fo I2 Lo. unfold codebinexpval. destruct (exp2RK fs2 e2) as [[fs3 e2'] x2] eqn:X2. destruct (exp2RK fs3 e1) as [[fs4 e1'] x1] eqn:X1.
  destruct (operands_inv W E fs0 b0 fs1 e1 r1 fs2 e2 r2 fs3 e2' x2 fs4 e1' x1 P0 L I1 Fo I2 Lo X2 X1) as (G & H & O1 & O2 & F & Sf).
  assert (T1: ety e1' = ety e1 /\ et e1' = [] /\ ef e1' = []) by (destruct x1; cbn in O1; [|destruct O1 as [O1 _]]; rewrite O1; auto). destruct T1 as (T1 & Et & Ef).
  assert (T2: ety e2' = vty e2) by (destruct x2; cbn in O2; [|destruct O2 as [O2 _]]; rewrite O2; auto). rewrite T1, T2.
  destruct (codebin o (ety e1) (vty e2)) as [[oc sw] ty] eqn:Cb. intros H1. injection H1 as <- <-. unfold with_ty, with_k. rewrite Et, Ef. cbn [ek et ef ety snd].
  pose proof (grow_same _ _ _ _ _ Sf G) as G'. pose proof (g_same _ _ _ _ _ _ _ _ Sf H) as H'. pose proof (grow_pre _ _ _ _ G') as P1.
  assert (V1: vty e1 = ety e1) by (destruct Fo as [[x Ox]|(_ & _ & v & Lv & _)]; [destruct x; cbn in Ox; [|destruct Ox as [Ox _]]; rewrite Ox; reflexivity|unfold vty; destruct (ek e1); try discriminate Lv; reflexivity]).
  assert (G1: Grow fs0 fs1 nohole []).
  { assert (Ar: arrival (ek e1)) by (destruct Fo as [[x Ox]|(_ & _ & v & Lv & _)]; [destruct x; cbn in Ox; [|destruct Ox as [Ox _]]; rewrite Ox; exact Logic.I|destruct (ek e1); try discriminate Lv; exact Logic.I]).
    assert (Ej: et e1 = [] /\ ef e1 = []) by (destruct Fo as [[x Ox]|(A & B & _)]; [destruct x; cbn in Ox; [|destruct Ox as [Ox _]]; rewrite Ox; auto|auto]).
    pose proof (inv_grow _ _ _ _ _ _ _ I1 Ar) as Gx. destruct Ej as [Ea Eb]. rewrite Ea, Eb in Gx. exact Gx. }
  split.
  - apply emit_reloc; auto.
    + eapply hc_ext; [eapply (g_hc W E _ _ _ _ _ (fun p => generic o (fst p) (snd p))); [exact H'|]|intros s O; apply pair_bind].
      intros P s [a b] X [[Ra Ha] [Rb Hb]]. cbn [fst snd] in *.
      pose proof (emitted_or o _ _ a b (world s) Ha Hb) as Em. rewrite Cb in Em. unfold opv. cbn [vres].
      destruct sw; cbn [operands] in Em; rewrite Ra, Rb; cbn [bind]; (destruct Em as [Em|[(i & j & Ei & Ej & Em) Eu]]; [left; exact Em|right; split; [|exact Eu]]; cbn [overflow_op]; exists i, j; rewrite Ra, Rb, Ei, Ej; auto).
    + discriminate.
    + replace ty with (snd (codebin o (ety e1) (vty e2))) by (rewrite Cb; reflexivity).
      apply (ty_then2 fs0 (ety e1) (vty e2)); [rewrite <- V1; apply (i_ty _ _ _ _ _ _ _ I1)|eapply ty_grow; [exact G1|apply (i_ty _ _ _ _ _ _ _ I2)]|].
      intros v v2 w v' w' Hv Hv2. apply (generic_type W (fmod E) (fpow E) (tmbin E) (tmun E)); auto.
  - eexists. split; [reflexivity|]. intros op Hop. rewrite (emit_nth _ _ P1) in Hop. injection Hop as <-. discriminate.
Qed.

(* comparisons *)
Lemma emit_cmp fs0 b0 fs r op c x y ty fs' j : Pre fs0 -> Grow fs0 fs nohole [] -> freereg fs = b0 -> HC fs0 b0 fs [] [] r (cmpv W E op c x y) -> TY fs0 ty r ->
  condjump fs (Cmp op c x y) = (fs', j) -> INV fs0 b0 fs' (mk (VJmp (hd 0 j)) [] [] ty) r.
Proof.
  intros P0 G F H T Cj. pose proof (grow_pre _ _ _ _ G) as P1. pose proof (cond_nth fs (Cmp op c x y) P1) as [N1 N2]. rewrite Cj in N1, N2. cbn [fst] in N1, N2.
  pose proof (refines_condjump nohole (fun p => p = pc fs) fs (Cmp op c x y) P1 ltac:(intros p ->; lia)) as Rf. rewrite Cj in Rf. cbn [fst] in Rf.
  pose proof Cj as Cj'. rewrite condjump_eq in Cj. pose proof (f_equal fst Cj) as Hf. pose proof (f_equal snd Cj) as Hj. cbn [fst snd] in Hf, Hj. subst j. clear Cj. cbn [hd]. rewrite (pc_emit _ _ P1).
  pose proof (grow_dj fs0 fs nohole [] P0 G) as Gd. pose proof (pc_dj fs P1) as Pd.
  assert (Hh: forall p, hole (mk (VJmp (S (pc fs))) [] [] ty) p <-> p = pc fs) by (intros p; unfold hole; cbn; lia).
  split.
  - unfold pend, vj. cbn [et ef ek app].
    pose proof (grow_cond fs0 (dischargejpc fs) (hole (mk (VJmp (S (pc fs))) [] [] ty)) [] (Cmp op c x y) Gd eq_refl ltac:(discriminate)) as Gc. rewrite Pd, Hf in Gc. apply Gc. intros p Hp. apply Hh in Hp. lia.
  - unfold kindok. cbn [ek]. split; [rewrite <- Hf; exact F|]. split; [rewrite <- Hf; reflexivity|]. split; [|exists (pc fs), op, c, x, y; auto].
    rewrite <- Hf. unfold pc at 2. cbn [code with_code]. rewrite app_length. fold (pc (dischargejpc fs)). rewrite Pd. cbn [length]. lia.
  - intros P X cf0 s0 O Ar.
    assert (X1: ext (fun p => p = pc fs) fs' P) by (eapply ext_hole; [|exact X]; intros p Hp; apply Hh; exact Hp).
    assert (X': ext nohole fs P) by (eapply ext_refines; [exact X1|exact Rf|exists []; rewrite <- Hf; cbn; rewrite app_nil_r; reflexivity]).
    eapply res_bind; [apply (H P X' cf0 s0 O Ar)|auto|]. intros cf (s & Ke & [[A1 V]|[J|J]]).
    + eapply res_steps; [eapply condjump_run with (h' := fun p => p = pc fs); [exact P1|rewrite Cj'; exact X1|intros p ->; lia|exact A1]|]. apply res_ret. exists s. split; [exact Ke|]. left.
      unfold exitF. cbn [ek]. split; [reflexivity|]. exists op, c, x, y. split; [exact N1|exact V].
    + destruct J as (j & Hj & _). cbn in Hj. lia.
    + destruct J as (j & Hj & _). cbn in Hj. lia.
  - exact T.
Qed.
Lemma as_val_bool fs0 r1 r2 o : TY fs0 T_BOOL (then2 r1 r2 (binary W E (BCmp o))).
Proof.
  intros s O v w. unfold then2. destruct (r1 (reg s) (world s)) as [[a w1]| | |]; cbn -[binary]; try discriminate.
  destruct (r2 (reg s) w1) as [[b w2]| | |]; cbn -[binary]; try discriminate.
  assert (A: forall n x, as_val W n x = Ok (v, w) -> hast T_BOOL v) by (intros n [[z wz]| | |]; cbn; try discriminate; intros Q; injection Q as <- _; destruct (xorb n z); reflexivity).
  destruct o; cbn [binary]; apply A.
Qed.
Lemma codecomp_inv fs0 b0 fs1 e1 r1 fs2 e2 r2 o fs' e' x1 : Pre fs0 -> nactvar fs0 <= b0 -> INV fs0 b0 fs1 e1 r1 -> operand e1 x1 (ety e1) ->
  INV fs1 (freereg fs1) fs2 e2 r2 -> LO (nactvar fs0) r2 -> codecomp fs2 o e1 e2 = (fs', e') ->
  INV fs0 b0 fs' e' (then2 r1 r2 (binary W E (BCmp o))) /\ exists p, e' = mk (VJmp p) [] [] T_BOOL.
Proof.
  intros P0 L I1 O1 I2 Lo. unfold codecomp. destruct (exp2RK fs2 e2) as [[fs3 e2'] x2] eqn:X2.
  assert (Hx: match ek e1 with VK k => K k | _ => R (reg_of e1) end = x1) by (destruct x1; cbn in O1; [|destruct O1 as [O1 _]]; rewrite O1; reflexivity). rewrite Hx.
  destruct (operands_inv W E fs0 b0 fs1 e1 r1 fs2 e2 r2 fs3 e2' x2 fs3 e1 x1 P0 L I1 (or_introl (ex_intro _ x1 O1)) I2 Lo X2 (exp2RK_id _ _ _ _ O1)) as (G & H & _ & O2 & F & Sf).
  assert (T2: ety e2' = vty e2) by (destruct x2; cbn in O2; [|destruct O2 as [O2 _]]; rewrite O2; auto). rewrite T2.
  assert (Ej: et e1 = [] /\ ef e1 = []) by (destruct x1; cbn in O1; [|destruct O1 as [O1 _]]; rewrite O1; auto). destruct Ej as [-> ->].
  pose proof (grow_same _ _ _ _ _ Sf G) as G'. pose proof (g_same _ _ _ _ _ _ _ _ Sf H) as H'. cbv zeta.
  match goal with |- context [condjump _ ?i] => destruct (condjump (freeexps fs3 e1 e2') i) as [fsc j] eqn:Cj end. intros H1. injection H1 as <- <-.
  split; [|eauto].
  assert (HV: forall op c x y, (forall P s a b, opS W x1 (ety e1) P s a -> opS W x2 (vty e2) P s b -> cmpv W E op c x y P s (binary W E (BCmp o) a b (world s))) ->
    HC fs0 b0 (freeexps fs3 e1 e2') [] [] (then2 r1 r2 (binary W E (BCmp o))) (cmpv W E op c x y)).
  { intros op c x y HH. eapply hc_ext; [eapply (g_hc W E _ _ _ _ _ (fun p => binary W E (BCmp o) (fst p) (snd p))); [exact H'|]|intros s O; apply pair_bind].
    intros P s [a b] X [Ha Hb]. apply HH; assumption. }
  assert (EX: forall (ne : bool) x, bind x (fun '(r, w) => Ok (Bool (Bool.eqb r (negb ne)), w)) = as_val W ne x) by (intros ne [[z wz]| | |]; cbn; auto; destruct ne, z; reflexivity).
  destruct o; (eapply emit_cmp; [exact P0|exact G'|exact F|apply HV|apply as_val_bool|exact Cj]);
    intros P s a b [Ra Ha] [Rb Hb]; unfold cmpv, cres; rewrite Ra, Rb; cbn [bind binary]; unfold compare; symmetry;
    [rewrite (emitted_cmp W (tmcmp E) Eq (ety e1) (vty e2)) by assumption; apply (EX false)
    |rewrite (emitted_cmp W (tmcmp E) Lt (ety e1) (vty e2)) by assumption; apply (EX false)
    |rewrite (emitted_cmp W (tmcmp E) Le (ety e1) (vty e2)) by assumption; apply (EX false)
    |rewrite (emitted_cmp W (tmcmp E) Eq (ety e1) (vty e2)) by assumption; apply (EX true)
    |rewrite (emitted_cmp W (tmcmp E) Lt (vty e2) (ety e1)) by assumption; apply (EX false)
    |rewrite (emitted_cmp W (tmcmp E) Le (vty e2) (ety e1)) by assumption; apply (EX false)].
Qed.
End opr.
