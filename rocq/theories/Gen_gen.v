(* The code of an expression computes its value. *)
Require Import ZArith List Bool Arith Lia.
From Coq Require Import Floats.SpecFloat.
From Verif Require Import Base Float_model Op_model Op_spec Op_proofs Gen_model Gen_spec Gen_facts Gen_run Gen_inv Gen_ops Gen_put Gen_cond Gen_not Gen_seq Gen_opr Gen_opr2.
Import ListNotations.
Local Open Scope nat_scope.

Scheme expr_ind2 := Induction for expr Sort Prop with args_ind2 := Induction for args Sort Prop.
Combined Scheme expr_args_ind from expr_ind2, args_ind2.

(* static types are not empty *)
Lemma mask_split t m : none_of t m = true -> none_of t (Z.lnot m) = true -> t = 0%Z.
Proof.
  unfold none_of. intros A B. apply Z.eqb_eq in A, B. rewrite <- (Z.land_m1_r t), <- (Z.lor_lnot_diag m), Z.land_lor_distr_r, A, B. reflexivity.
Qed.
Lemma none_land0 t m : none_of t m = true -> Z.land t m = 0%Z.
Proof. unfold none_of. apply Z.eqb_eq. Qed.
Lemma none_falsish t : t <> 0%Z -> none_of t T_FALSISH = true -> none_of t T_TRUISH = false.
Proof. intros N A. destruct (none_of t T_TRUISH) eqn:B; [|reflexivity]. exfalso. apply N. eapply mask_split; eauto. Qed.
Lemma none_truish t : t <> 0%Z -> none_of t T_TRUISH = true -> none_of t T_FALSISH = false.
Proof. intros N A. destruct (none_of t T_FALSISH) eqn:B; [|reflexivity]. exfalso. apply N. eapply mask_split; eauto. Qed.
Lemma elements_nz t : t <> 0%Z -> elements t <> 0%Z.
Proof.
  intros N. unfold elements, codeget. cbn [snd]. destruct (within t (Z.lor T_IARR T_FARR)) eqn:B; cbn [negb]; [|discriminate].
  intros Q. apply Z.lor_eq_0_iff in Q as [Q1 Q2]. destruct (none_of t T_IARR) eqn:N1; [|discriminate Q1]. destruct (none_of t T_FARR) eqn:N2; [|discriminate Q2].
  apply N. apply (mask_split t (Z.lor T_IARR T_FARR)); [|exact B]. unfold none_of in *. apply Z.eqb_eq in N1, N2. apply Z.eqb_eq. rewrite Z.land_lor_distr_r, N1, N2. reflexivity.
Qed.
Lemma not_ty_nz t : t <> 0%Z -> not_ty t <> 0%Z.
Proof.
  intros N Q. unfold not_ty in Q. apply Z.lor_eq_0_iff in Q as [Q1 Q2]. destruct (none_of t T_TRUISH) eqn:A; [|discriminate Q1]. destruct (none_of t T_FALSISH) eqn:B; [|discriminate Q2].
  apply N. eapply mask_split; eauto.
Qed.
Lemma codebin_nz o t1 t2 : snd (codebin o t1 t2) <> 0%Z.
Proof. destruct o; cbn [codebin]; unfold gen_arith, gen_int, allgen; cbn [o_ff o_fi o_if o_swap o_ii o_iit]; repeat (match goal with |- context [if ?b then _ else _] => destruct b end); cbn [snd]; discriminate. Qed.
Lemma land_truish t : none_of t T_TRUISH = true -> Z.land t T_FALSISH = t.
Proof. intros H. apply none_land0 in H. rewrite <- (Z.land_m1_r t) at 2. rewrite <- (Z.lor_lnot_diag T_FALSISH), Z.land_lor_distr_r. change (Z.lnot T_FALSISH) with T_TRUISH. rewrite H, Z.lor_0_r. reflexivity. Qed.
Lemma land_falsish t : none_of t T_FALSISH = true -> Z.land t T_TRUISH = t.
Proof. intros H. apply none_land0 in H. rewrite <- (Z.land_m1_r t) at 2. rewrite <- (Z.lor_lnot_diag T_FALSISH), Z.land_lor_distr_r. change (Z.lnot T_FALSISH) with T_TRUISH. rewrite H. reflexivity. Qed.
Lemma none_lor t1 t2 m : none_of t1 m = true -> none_of t2 m = true -> none_of (Z.lor t1 t2) m = true.
Proof. unfold none_of. intros A B. apply Z.eqb_eq in A, B. apply Z.eqb_eq. rewrite Z.land_lor_distr_l, A, B. reflexivity. Qed.
Lemma none_tf t : none_of (Z.land t T_TRUISH) T_FALSISH = true.
Proof. unfold none_of. apply Z.eqb_eq. rewrite <- Z.land_assoc. apply Z.land_0_r. Qed.
Lemma none_ft t : none_of (Z.land t T_FALSISH) T_TRUISH = true.
Proof. unfold none_of. apply Z.eqb_eq. rewrite <- Z.land_assoc. apply Z.land_0_r. Qed.

Section types.
Variable n : nat.
Variable lt ut : nat -> tmap.
Hypothesis LNZ : forall r, r < n -> lt r <> 0%Z.
Hypothesis UNZ : forall u, ut u <> 0%Z.
Notation styp := (styp n lt ut).
Notation tame := (tame n lt ut).
Notation tames := (tames n lt ut).
Lemma styp_nz : forall x, styp x <> 0%Z.
Proof.
  fix IH 1. intros x; destruct x; cbn [Gen_spec.styp]; try discriminate.
  - destruct (Nat.ltb_spec r n); [apply LNZ; assumption|discriminate].
  - apply UNZ.
  - apply elements_nz, UNZ.
  - apply IH.
  - apply elements_nz, IH.
  - destruct o.
    + destruct o; cbn [codeun]; [cbn [snd]; destruct (within _ _); [apply IH|discriminate]|destruct (Z.eqb _ _); [discriminate|]; cbn [snd]; destruct (Z.eqb _ _); discriminate].
    + unfold len_ty. destruct (within _ _); discriminate.
    + apply not_ty_nz, IH.
    + unfold conv_ty'. destruct (nothing_to_do _ _); [apply IH|destruct c; discriminate].
  - destruct o.
    + apply codebin_nz.
    + unfold cat_ty. destruct (_ && _); discriminate.
    + discriminate.
    + destruct (none_of (styp x1) T_TRUISH) eqn:N; [rewrite (land_truish _ N); apply IH|]. intros Q. apply Z.lor_eq_0_iff in Q as [Q _]. exact (IH _ Q).
    + destruct (none_of (styp x1) T_FALSISH) eqn:N; [rewrite (land_falsish _ N); apply IH|]. intros Q. apply Z.lor_eq_0_iff in Q as [Q _]. exact (IH _ Q).
Qed.

Section main.
Variable W : Type.
Variable E : env W.
Notation step := (step W E).
Notation config := (config W).
Notation state := (state W).
Notation Res := (Res W E).
Notation steps := (steps W E).
Notation INV := (INV W E).
Notation HC := (HC W E).
Notation HCg := (HCg W E).
Notation TY := (TY W).
Notation result := (result W).
Notation LO := (LO W).
Notation then1 := (then1 W).
Notation then2 := (then2 W).
Notation eval := (eval W E n lt ut).
Notation evals := (evals W E n lt ut).
Notation gen := (gen (fmod E) (fpow E)).
Notation genargs := (genargs (fmod E) (fpow E)).
Hypothesis PL : plain W E ut.

Ltac bnd l l' w Q := unfold bind; rewrite Q; try (destruct l' as [[]| | |]; auto).
Lemma eval_lo : (forall x, tame x = true -> LO n (eval x)) /\ (forall x, tames x = true -> LO n (evals x)).
Proof.
  assert (B1: forall {A B} (o o' : outcome (A * W)) (f g : A -> W -> outcome B), o = o' -> (forall a w, f a w = g a w) -> bind o (fun '(a, w) => f a w) = bind o' (fun '(a, w) => g a w)).
  { intros A B o o' f g -> H. destruct o' as [[a w]| | |]; cbn; auto. }
  apply expr_args_ind; cbn [Gen_spec.tame Gen_spec.tames]; intros; try (intros l0 l' w H'; reflexivity).
  - intros l l' w H'. cbn. apply Nat.ltb_lt in H. rewrite H' by exact H. reflexivity.
  - exact (H H0).
  - apply andb_prop in H1 as [T1 T2]. intros l l' w H'. cbn. apply B1; [apply H; assumption|]. intros v w1. apply B1; [apply H0; assumption|]. reflexivity.
  - assert (T: tame a = true) by (destruct o; auto; apply andb_prop in H0 as [H0 _]; apply andb_prop in H0 as [H0 _]; exact H0).
    intros l l' w H'. destruct o; cbn; (apply B1; [apply H; assumption|]; reflexivity).
  - assert (T: tame a = true /\ tame b = true) by (destruct o; repeat match goal with H : _ && _ = true |- _ => apply andb_prop in H as [? ?] end; auto). destruct T as [T1 T2].
    intros l l' w H'. pose proof (H T1 l l' w H') as Q1. pose proof (fun w => H0 T2 l l' w H') as Q2.
    destruct o; cbn; (apply B1; [exact Q1|]; intros v w1); try (apply B1; [apply Q2|]; reflexivity); (destruct (truthy v); [try reflexivity; apply Q2|try reflexivity; apply Q2]).
  - apply andb_prop in H1 as [T1 T2]. intros l0 l' w H'. cbn. apply B1; [apply H; assumption|]. intros v w1. apply B1; [apply H0; assumption|]. reflexivity.
  - apply andb_prop in H1 as [T1 T2]. intros l0 l' w H'. cbn. apply B1; [apply H; assumption|]. intros v w1. apply B1; [apply H0; assumption|]. reflexivity.
Qed.

(* what is known of the descriptor of an expression *)
Record SH (x : expr) (fs : fstate) (e : expdesc) : Prop := {
  sh_kind : match ek e with
            | VReloc _ | VUpval _ | VIndexed _ _ _ _ => shape_of x = Temp
            | VLocal r => r < n /\ shape_of x = Loc
            | VNonreloc r => (r < n /\ shape_of x = Loc) \/ (n <= r /\ shape_of x = Temp)
            | VK k => exists s, nth_error (ks fs) k = Some (Str s)
            | VJmp _ => shape_of x = Jump
            | _ => True
            end;
  sh_simple : simple x = true -> et e = [] /\ ef e = [];
  sh_true : lits (ek e) true -> ef e = [] -> none_of (vty e) T_FALSISH = true;
  sh_false : lits (ek e) false -> et e = [] -> none_of (vty e) T_TRUISH = true;
  sh_num : et e = [] -> ef e = [] -> (forall i, ek e = VKInt i -> ety e = T_INT) /\ (forall f, ek e = VKFlt f -> ety e = T_FLT);
  sh_cat : cat_ok fs e }.
Definition good (x : expr) : Prop := forall fs fs' e, Pre fs -> nactvar fs = n -> lty fs = lt -> uty fs = ut -> n <= freereg fs -> gen fs x = Ok (fs', e) ->
  INV fs (freereg fs) fs' e (eval x) /\ vty e = styp x /\ SH x fs' e.
Definition goods (l : args) : Prop := forall fs fs' m, Pre fs -> nactvar fs = n -> lty fs = lt -> uty fs = ut -> n <= freereg fs -> genargs fs l = Ok (fs', m) ->
  Grow fs fs' nohole [] /\ freereg fs' = freereg fs + m /\ HCg fs (freereg fs) fs' (evals l) (valsS W (freereg fs) m).
Lemma sh_temporary x fs e : SH x fs e -> temporary n e -> shape_of x = Temp.
Proof. intros H T. pose proof (sh_kind _ _ _ H) as K. unfold temporary in T. destruct (ek e); try contradiction; auto. destruct K as [[K _]|[_ K]]; [lia|exact K]. Qed.
Lemma sh_vk x fs e : SH x fs e -> forall k, ek e = VK k -> exists v, nth_error (ks fs) k = Some v /\ truthy v = true.
Proof. intros H k Ke. pose proof (sh_kind _ _ _ H) as K. rewrite Ke in K. destruct K as [s K]. exists (Str s). auto. Qed.
(* descriptors of computed values *)
Lemma sh_reloc x fs p ty : shape_of x = Temp -> (forall b c, nth_error (code fs) p = Some (Val None (OConcat b c)) -> ty = T_STR \/ ty = T_ANY) -> SH x fs (mk (VReloc p) [] [] ty).
Proof.
  intros S C. split; cbn; auto; try contradiction.
  - intros _ _. split; intros ? Q; discriminate Q.
  - intros p' b c Q _ _ N. injection Q as <-. eapply C; eauto.
Qed.
Lemma sh_nonreloc x fs r ty : shape_of x = Temp -> n <= r -> SH x fs (mk (VNonreloc r) [] [] ty).
Proof.
  intros S C. split; cbn; auto; try contradiction.
  - intros _ _. split; intros ? Q; discriminate Q.
  - intros p b c Q. discriminate Q.
Qed.
Lemma cat_ok_other fs e : (forall p, ek e <> VReloc p) -> cat_ok fs e.
Proof. intros H p b c Q. exfalso. eapply H; eauto. Qed.
Lemma lit_good x v k t : (forall fs, gen fs x = Ok (fs, init k t)) -> lit_val k = Some v -> litok v -> hast t v -> styp x = t -> shape_of x = Lit -> (forall l w, eval x l w = Ok (v, w)) -> 
  (lits k true -> none_of t T_FALSISH = true) -> (lits k false -> none_of t T_TRUISH = true) -> (forall i, k = VKInt i -> t = T_INT) -> (forall f, k = VKFlt f -> t = T_FLT) -> good x.
Proof.
  intros G Lv Lo Ht Ts Sh Ev L1 L2 N1 N2 fs fs' e P0 Nn Nl Nu Lf Q. rewrite G in Q. injection Q as <- <-. 
  assert (Vt: vty (init k t) = t) by (unfold vty, init; cbn; destruct k; try discriminate Lv; reflexivity).
  split; [|split].
  - eapply inv_ext; [apply lit_inv; eauto|]. intros s O. rewrite Ev. reflexivity.
  - rewrite Vt. symmetry. exact Ts.
  - split; rewrite ?Vt; cbn [ek et ef init ety]; auto.
    + destruct k; try discriminate Lv; exact Logic.I.
    + apply cat_ok_other. cbn. intros p Q. rewrite Q in Lv. discriminate Lv.
Qed.

Lemma inv_st fs0 b fs e r : INV fs0 b fs e r -> nactvar fs = nactvar fs0 /\ lty fs = lty fs0 /\ uty fs = uty fs0 /\ Pre fs /\ b <= freereg fs.
Proof.
  intros I0. pose proof (i_grow _ _ _ _ _ _ _ I0) as G. pose proof (i_kind _ _ _ _ _ _ _ I0) as K. split; [apply (g_nact _ _ _ _ G)|]. split; [apply (g_lty _ _ _ _ G)|]. split; [apply (g_uty _ _ _ _ G)|]. split; [apply (grow_pre _ _ _ _ G)|].
  unfold kindok in K. destruct (ek e); try lia; destruct K as [K|K]; try lia.
Qed.
Lemma str_good s : good (EStr s).
Proof.
  intros fs fs' e P0 Nn Nl Nu Lf Q. cbn [Gen_model.gen] in Q. destruct (addk fs (Str s)) as [fs1 k] eqn:Ak. injection Q as <- <-.
  destruct (addk_spec fs (Str s) fs1 k (p_kok _ P0) ltac:(intros f Q; discriminate Q) Ak) as (l & -> & N & Kk). split; [|split; [reflexivity|]].
  - apply hc_inv; cbn [ek et ef init].
    + exact Logic.I.
    + apply grow_ks; [apply grow_refl; exact P0|exact Kk].
    + unfold kindok. cbn. split; [reflexivity|]. eapply nth_lt; exact N.
    + intros s' O v w Q. injection Q as <- _. reflexivity.
    + intros P Xp cf0 s0 O Ar. apply res_ret. exists s0. split; [apply keep_refl|]. left. split; [exact Ar|]. exists (Str s). auto.
  - split; cbn; auto.
    + exists s. exact N.
    + intros _ _. split; intros ? Q; discriminate Q.
    + apply cat_ok_other. discriminate.
Qed.
Lemma local_good r : r < n -> good (ELocal r).
Proof.
  intros Hr fs fs' e P0 Nn Nl Nu Lf Q. cbn [Gen_model.gen] in Q. injection Q as <- <-. unfold register_type. rewrite Nn, Nl. destruct (Nat.ltb_spec r n) as [_|C]; [|lia].
  split; [|split].
  - apply hc_inv; cbn [ek et ef init].
    + exact Logic.I.
    + apply grow_refl. exact P0.
    + unfold kindok. cbn. rewrite Nn. auto.
    + intros s' O v w Q. injection Q as <- _. unfold vty, init. cbn [ek ety]. rewrite <- Nl. apply O. lia.
    + intros P Xp cf0 s0 O Ar. apply res_ret. exists s0. split; [apply keep_refl|]. left. split; [exact Ar|]. reflexivity.
  - cbn [Gen_spec.styp]. destruct (Nat.ltb_spec r n) as [_|C]; [|lia]. reflexivity.
  - split; cbn; auto; try contradiction.
    + intros _ _. split; intros ? Q; discriminate Q.
    + apply cat_ok_other. discriminate.
Qed.
Lemma upval_good u : good (EUpval u).
Proof.
  destruct PL as (PN & PU & _). intros fs fs' e P0 Nn Nl Nu Lf Q. cbn [Gen_model.gen] in Q. injection Q as <- <-. rewrite Nu.
  split; [|split; [reflexivity|]].
  - apply hc_inv; cbn [ek et ef init].
    + exact Logic.I.
    + apply grow_refl. exact P0.
    + reflexivity.
    + intros s' O v w Q. injection Q as <- _. apply PU.
    + intros P Xp cf0 s0 O Ar. apply res_ret. exists s0. split; [apply keep_refl|]. left. split; [exact Ar|]. reflexivity.
  - split; cbn; auto; try contradiction.
    + intros _ _. split; intros ? Q; discriminate Q.
    + apply cat_ok_other. discriminate.
Qed.
Lemma sh_indexed x fs u t k kt ty : shape_of x = Temp -> SH x fs (mk (VIndexed u t k kt) [] [] ty).
Proof.
  intros S. split; cbn; auto; try contradiction.
  - intros _ _. split; intros ? Q; discriminate Q.
  - apply cat_ok_other. discriminate.
Qed.
Lemma global_good u s : good (EGlobal u s).
Proof.
  destruct PL as (PN & PU & _). intros fs fs' e P0 Nn Nl Nu Lf Q. cbn [Gen_model.gen] in Q. destruct (addk fs (Str s)) as [fs1 k] eqn:Ak. apply (f_equal (fun o => match o with Ok x => x | _ => (fs', e) end)) in Q. cbv beta iota in Q.
  assert (Hu: uty fs1 = uty fs).
  { destruct (addk_spec fs (Str s) fs1 k (p_kok _ P0) ltac:(intros f Q'; discriminate Q') Ak) as (l & -> & _). reflexivity. }
  destruct (global_inv W E fs u s fs1 k fs' e P0 ltac:(lia) ltac:(intros w v; rewrite Nu; apply PU) Ak) as (I0 & idx & ->).
  { rewrite Hu in *. exact Q. }
  rewrite Nu in I0 |- *. split; [exact I0|]. split; [reflexivity|]. apply sh_indexed. reflexivity.
Qed.
(* the descriptor of a parenthesised expression, and of the second operand of 'and' and 'or' *)
Lemma sh_discharge x fs e fs' e' : Pre fs -> SH x fs e -> dischargevars fs e = (fs', e') -> vty e' = vty e -> et e' = et e -> ef e' = ef e -> SH x fs' e'.
Proof.
  intros P0 S D V Et Ef. assert (Ty: (forall p, ek e <> VReloc p) -> cat_ok fs' e').
  { intros Nr. unfold dischargevars in D. destruct (ek e) eqn:Ke; try (injection D as <- <-; apply cat_ok_other; rewrite Ke; discriminate).
    - injection D as <- <-. apply cat_ok_other. discriminate.
    - injection D as <- <-. intros p b c K _ _ N. injection K as <-. rewrite emit_nth in N by exact P0. discriminate N.
    - destruct (codeget _ _ _) as [op ty]. cbv zeta in D. injection D as <- <-. intros p b c K _ _ N. injection K as <-.
      assert (P1: forall f, samefs fs f -> nth_error (code (emit f (Val None (if up then OGetTabUp (if Z.eqb kt T_STR && isshortstr fs idx then OP_GETFIELD else OP_GETTABLE) t idx else OGet op t idx)))) (pc fs) = Some (Val None (OConcat b c)) -> False).
      { intros f Sf N'. assert (Hp: pc f = pc fs) by (unfold pc; f_equal; apply Sf). rewrite <- Hp, emit_nth in N'; [destruct up; discriminate N'|]. apply (grow_pre fs f nohole []). eapply grow_same; [exact Sf|apply grow_refl; exact P0]. }
      assert (S1: samefs fs (free_rk fs idx)) by (destruct idx; [apply same_free_reg|apply same_refl]).
      exfalso. eapply P1; [|exact N]. destruct up; [exact S1|eapply same_trans; [exact S1|apply same_free_reg]].
    - exfalso. eapply Nr. reflexivity. }
  destruct (dv_cases _ _ _ _ D) as [[-> ->]|[(-> & r & K1 & K2)|[[p K2] Te]]]; [exact S| |].
  - pose proof (sh_kind _ _ _ S) as K. rewrite K1 in K. split; rewrite ?K2, ?Et, ?Ef; try contradiction.
    + left. exact K.
    + apply (sh_simple _ _ _ S).
    + intros _ _. split; intros ? Q; discriminate Q.
    + apply Ty. rewrite K1. discriminate.
  - split; rewrite ?K2, ?Et, ?Ef; try contradiction.
    + apply (sh_temporary _ _ _ S). apply Te.
    + apply (sh_simple _ _ _ S).
    + intros _ _. split; intros ? Q; discriminate Q.
    + unfold dischargevars in D. destruct (ek e) eqn:Ke; try (apply Ty; discriminate). injection D as <- <-. apply (sh_cat _ _ _ S).
Qed.

Ltac bo Q H := match type of Q with bind ?o ?f = Ok ?z => destruct o as [[? ?]| | |] eqn:H; cbn [bind] in Q; try discriminate Q end.
Ltac okeq Q := match type of Q with Ok ?a = Ok ?b => apply (f_equal (fun o => match o with Ok x => x | _ => b end)) in Q; cbv beta iota in Q end.
Lemma paren_good a : good a -> good (EParen a).
Proof.
  intros IH fs fs' e P0 Nn Nl Nu Lf Q. cbn [Gen_model.gen] in Q. bo Q G1. okeq Q. destruct (IH fs _ _ P0 Nn Nl Nu Lf G1) as (I0 & V & S).
  destruct (dischargevars_inv W E _ _ _ _ _ _ _ P0 I0 Q) as (I1 & D & V1 & Et & Ef). destruct (inv_st _ _ _ _ _ I0) as (_ & _ & _ & P1 & _).
  split; [exact I1|]. split; [cbn; congruence|]. destruct (sh_discharge a f e0 fs' e P1 S Q V1 Et Ef) as [A1 A2 A3 A4 A5 A6]. split; auto.
Qed.
Lemma index_good a b : good a -> good b -> tame b = true -> good (EIndex a b).
Proof.
  intros IHa IHb Tb fs fs' e P0 Nn Nl Nu Lf Q. assert (Lq: nactvar fs <= freereg fs) by lia. cbn [Gen_model.gen] in Q. bo Q G1. destruct (exp2anyreg f e0) as [f1 e1] eqn:X1. bo Q G2. destruct (exp2val f0 e2) as [f3 e3] eqn:X2. okeq Q.
  destruct (IHa fs _ _ P0 Nn Nl Nu Lf G1) as (I0 & V & S). destruct (exp2anyreg_inv W E _ _ _ _ _ _ _ P0 Lq I0 X1) as (I1 & x & ->).
  destruct (inv_st _ _ _ _ _ I1) as (N1 & L1 & U1 & P1 & F1). assert (Lq1: nactvar f1 <= freereg f1) by lia.
  destruct (IHb f1 _ _ P1 ltac:(congruence) ltac:(congruence) ltac:(congruence) ltac:(lia) G2) as (I2 & V2 & S2).
  destruct (exp2val_inv W E _ _ _ _ _ _ _ P1 Lq1 I2 X2) as (I3 & D3 & Et & Ef & T3).
  assert (V3: vty e3 = ety e3) by (unfold vty; destruct (ek e3); cbn in D3; try contradiction; reflexivity).
  destruct (indexed_inv W E _ _ _ _ _ _ _ _ _ _ _ P0 Lq I1 I3 V3 ltac:(rewrite Nn; apply eval_lo; exact Tb) Q) as (I4 & idx & ->).
  split; [exact I4|]. split; [|apply sh_indexed; reflexivity]. cbn. rewrite V. reflexivity.
Qed.
Lemma numeral_ty t : t = T_INT \/ t = T_FLT -> forall nn, hast t (Num nn) -> t = match nn with NInt _ => T_INT | NFlt _ => T_FLT end.
Proof. intros [->| ->] [i|f]; cbn; auto; discriminate. Qed.
(* a folded number *)
Lemma folded x fs0 b0 fs e nn r' : et e = [] -> ef e = [] -> (forall f, nn = NFlt f -> literal_ok f = true) -> TY fs0 (match nn with NInt _ => T_INT | NFlt _ => T_FLT end) r' ->
  Grow fs0 fs nohole [] -> freereg fs = b0 -> HC fs0 b0 fs [] [] r' (fun _ s o => o = Ok (Num nn, world s)) ->
  INV fs0 b0 fs (of_num nn e) r' /\ vty (of_num nn e) = (match nn with NInt _ => T_INT | NFlt _ => T_FLT end) /\ SH x fs (of_num nn e).
Proof.
  intros Et Ef Lo T G Fr Hc. destruct nn as [i|f]; unfold of_num, with_ty, with_k; cbn [ek et ef ety]; rewrite Et, Ef.
  - split; [|split; [reflexivity|]].
    + apply hc_inv; cbn [ek et ef]; auto. exact Logic.I.
    + split; cbn; auto; try discriminate. intros _ _. split; [auto|]. intros ? Q; discriminate Q.
  - split; [|split; [reflexivity|]].
    + apply hc_inv; cbn [ek et ef]; auto; [exact Logic.I|]. unfold kindok. cbn. auto.
    + split; cbn; auto; try discriminate. intros _ _. split; [|auto]. intros ? Q; discriminate Q.
Qed.
Lemma tonumeral_spec e a : tonumeral e = Some a -> et e = [] /\ ef e = [] /\ arrival (ek e) /\ discharged (ek e) /\ lit_val (ek e) = Some (Num a) /\ vty e = ety e /\ match a with NInt i => ek e = VKInt i | NFlt f => ek e = VKFlt f end.
Proof.
  unfold tonumeral, hasjumps, vty. destruct (et e), (ef e); cbn; try discriminate. destruct (ek e); try discriminate; intros Q; injection Q as <-; cbn; auto 10.
Qed.
Lemma num_val P fs e s o a : tonumeral e = Some a -> valF W E P fs e s o -> o = Ok (Num a, world s).
Proof. intros T V. destruct (tonumeral_spec _ _ T) as (_ & _ & _ & _ & _ & _ & K). unfold valF in V. destruct a; rewrite K in V; exact V. Qed.
Lemma num_const fs0 b0 fs e r a : INV fs0 b0 fs e r -> tonumeral e = Some a -> HCg fs0 b0 fs r (fun _ _ v => v = Num a) /\ Grow fs0 fs nohole [] /\ freereg fs = b0 /\ litok (Num a).
Proof.
  intros I0 T. destruct (tonumeral_spec _ _ T) as (Et & Ef & A & D & L & Vt & K). split; [|split; [|split]].
  - eapply inv_g; eauto. intros P s v X V H. pose proof (num_val _ _ _ _ _ _ T V) as Q. injection Q as ->. reflexivity.
  - pose proof (inv_grow _ _ _ _ _ _ _ I0 A) as G. rewrite Et, Ef in G. exact G.
  - pose proof (i_kind _ _ _ _ _ _ _ I0) as Ki. unfold kindok in Ki. destruct a; rewrite K in Ki; intuition.
  - pose proof (i_kind _ _ _ _ _ _ _ I0) as Ki. unfold kindok in Ki. destruct a as [|y]; rewrite K in Ki; intros f Q; [discriminate Q|]. injection Q as <-. intuition.
Qed.
Lemma fold_literal nn : (forall f, nn = NFlt f -> f <> S754_nan /\ forall s, f <> S754_zero s) -> forall f, nn = NFlt f -> literal_ok f = true.
Proof. intros H f ->. destruct (H f eq_refl) as [A B]. destruct f as [[]| | |]; cbn; auto; congruence. Qed.
Lemma num_ty x fs e a : SH x fs e -> tonumeral e = Some a -> vty e = T_INT \/ vty e = T_FLT.
Proof. intros S T. destruct (tonumeral_spec _ _ T) as (Et & Ef & A & D & L & Vt & K). destruct (sh_num _ _ _ S Et Ef) as [S1 S2]. rewrite Vt. destruct a; eauto. Qed.
Lemma num_hast x fs e a : SH x fs e -> tonumeral e = Some a -> hast (vty e) (Num a).
Proof. intros S T. destruct (tonumeral_spec _ _ T) as (Et & Ef & A & D & L & Vt & K). destruct (sh_num _ _ _ S Et Ef) as [S1 S2]. rewrite Vt. destruct a; [rewrite (S1 _ K)|rewrite (S2 _ K)]; reflexivity. Qed.
Lemma un_num_ty o t : t = T_INT \/ t = T_FLT -> snd (codeun o t) = T_INT \/ snd (codeun o t) = T_FLT.
Proof. intros [->| ->]; destruct o; cbn; auto. Qed.
Lemma bin_num_ty o t1 t2 : t1 = T_INT \/ t1 = T_FLT -> t2 = T_INT \/ t2 = T_FLT -> snd (codebin o t1 t2) = T_INT \/ snd (codebin o t1 t2) = T_FLT.
Proof. intros [->| ->] [->| ->]; destruct o; cbn; auto. Qed.

Lemma unarith_good o a : good a -> good (EUn (UArith o) a).
Proof.
  destruct PL as (PN & _). intros IH fs fs' e P0 Nn Nl Nu Lf Q. assert (Lq: nactvar fs <= freereg fs) by lia. cbn [Gen_model.gen] in Q. bo Q G1. destruct (IH fs _ _ P0 Nn Nl Nu Lf G1) as (I0 & V & S).
  assert (Comp: codeunexpval f o e0 = (fs', e) -> INV fs (freereg fs) fs' e (eval (EUn (UArith o) a)) /\ vty e = styp (EUn (UArith o) a) /\ SH (EUn (UArith o) a) fs' e).
  { intros C. destruct (codeunexpval_inv W E _ _ _ _ _ _ _ _ P0 Lq PN I0 C) as (I1 & p & -> & Np). split; [exact I1|]. split; [cbn; rewrite V; reflexivity|].
    apply sh_reloc; [reflexivity|]. intros b c N. destruct (Np _ N b c eq_refl). }
  cbn [prefix] in Q. destruct (tonumeral e0) as [x|] eqn:T; [|okeq Q; apply Comp; exact Q]. destruct (constfolding1 o x) as [[nn|]| | |] eqn:Cf; cbn [bind] in Q; try discriminate Q; [|okeq Q; apply Comp; exact Q].
  injection Q as <- <-. destruct (tonumeral_spec _ _ T) as (Et & Ef & A & D & L & Vt & K). destruct (num_const _ _ _ _ _ _ I0 T) as (H & G & Fr & Lo).
  pose proof (fun w => fold1_ok W (tmun E) o x w nn Cf) as Fo. pose proof (num_ty _ _ _ _ S T) as Nt.
  assert (Hc: HC fs (freereg fs) f [] [] (eval (EUn (UArith o) a)) (fun _ s o => o = Ok (Num nn, world s))).
  { eapply hc_ext; [apply (g_hc W E fs (freereg fs) f _ _ (unary W E (UArith o)) (fun _ s o => o = Ok (Num nn, world s)) H)|intros s O; reflexivity]. intros P s v X ->. cbn. apply Fo. }
  assert (T1: TY fs (snd (codeun o (vty e0))) (eval (EUn (UArith o) a))).
  { eapply ty_then1; [apply (i_ty _ _ _ _ _ _ _ I0)|]. intros v w v' w' Hv Eq. eapply generic_un_type; eauto. }
  assert (Tn: snd (codeun o (vty e0)) = match nn with NInt _ => T_INT | NFlt _ => T_FLT end).
  { apply numeral_ty; [apply un_num_ty; exact Nt|]. eapply (generic_un_type unit (fun _ _ _ _ => Err EType) (fun _ _ _ => Err EType) o _ (Num x) tt).
    - eapply num_hast; eauto.
    - split; intros; discriminate.
    - apply (fold1_ok unit _ o x tt nn Cf). }
  rewrite Tn in T1. destruct (folded (EUn (UArith o) a) fs (freereg fs) f e0 nn _ Et Ef (fold_literal nn (proj2 (fold1_ok unit (fun _ _ _ => Err EType) o x tt nn Cf))) T1 G Fr Hc) as (R1 & R2 & R3).
  split; [exact R1|]. split; [|exact R3]. rewrite R2, <- Tn, V. reflexivity.
Qed.

Lemma len_good a : good a -> good (EUn ULen a).
Proof.
  destruct PL as (PN & _ & PLn & _). intros IH fs fs' e P0 Nn Nl Nu Lf Q. assert (Lq: nactvar fs <= freereg fs) by lia. cbn [Gen_model.gen] in Q. bo Q G1. destruct (IH fs _ _ P0 Nn Nl Nu Lf G1) as (I0 & V & S).
  cbn [prefix] in Q. okeq Q. destruct (codelen_inv W E n lt ut _ _ _ _ _ _ _ P0 Lq PLn I0 Q) as (I1 & T & Et & Ef & K).
  assert (Ve: vty e = ety e) by (unfold vty; destruct K as [->|(p & -> & _)]; reflexivity).
  split; [|split].
  - eapply inv_ext; [exact I1|]. intros s O. rewrite V. reflexivity.
  - rewrite Ve, T, V. reflexivity.
  - destruct e as [k t f' ty]. cbn [ek et ef] in *. subst t f'. destruct K as [->|(p & -> & Np)].
    + apply sh_nonreloc; [reflexivity|lia].
    + apply sh_reloc; [reflexivity|]. intros b c N. destruct (Np _ N b c eq_refl).
Qed.
Lemma codenot_cat fs0 b0 fs e r fs' e' : Pre fs0 -> nactvar fs0 <= b0 -> INV fs0 b0 fs e r -> codenot fs e = (fs', e') -> cat_ok fs' e'.
Proof.
  intros P0 L I0. unfold codenot. destruct (dischargevars fs e) as [fsx ex] eqn:Dx.
  destruct (dischargevars_inv W E fs0 b0 fs e r fsx ex P0 I0 Dx) as (I1 & D1 & Ty & Et & Ef).
  assert (Comp: (forall p, ek ex <> VJmp p) ->
    (let '(fs, e) := (let '(fs, e) := discharge2anyreg fsx ex in let fs := freeexp fs e in (emit fs (Val None (ONot (reg_of e))), with_k e (VReloc (pc fs)))) in
     (with_code fs (removevalues (removevalues (code fs) (et e)) (ef e)), mk (ek e) (ef e) (et e) (Z.lor (if none_of (ety e) T_TRUISH then 0 else T_FALSE) (if none_of (ety e) T_FALSISH then 0 else T_TRUE)))) = (fs', e') -> cat_ok fs' e').
  { intros Nj. destruct (discharge2anyreg fsx ex) as [fsy ey] eqn:Dy. destruct (d2any_inv W E fs0 b0 fsx ex r fsy ey P0 L I1 D1 Nj Dy) as (I2 & x & -> & _).
    destruct (freeexp_base (nactvar fs0) b0 fsy (with_k ex (VNonreloc x)) L (g_nact _ _ _ _ (i_grow _ _ _ _ _ _ _ I2)) (i_kind _ _ _ _ _ _ _ I2) Logic.I) as [Fb Sf].
    cbv zeta. set (fsz := freeexp fsy (with_k ex (VNonreloc x))) in *. cbn [reg_of ek with_k et ef].
    pose proof (grow_pre _ _ _ _ (grow_same _ _ _ _ _ Sf (inv_grow _ _ _ _ _ _ _ I2 Logic.I))) as P1.
    intros H. injection H as <- <-. intros p b c K E1 E2 N. cbn [ek et ef code with_code] in *. injection K as <-. rewrite E1, E2 in N. change (nth_error (code (emit fsz (Val None (ONot x)))) (pc fsz) = Some (Val None (OConcat b c))) in N. rewrite emit_nth in N by exact P1. discriminate N. }
  destruct (ek ex) eqn:Ke; cbn in D1; try contradiction; try (intros H; injection H as <- <-; apply cat_ok_other; cbn; rewrite ?Ke; discriminate); apply Comp; discriminate.
Qed.
Lemma codenot_jmp fs e fs' e' : codenot fs e = (fs', e') -> forall p, ek e' = VJmp p -> exists q, ek e = VJmp q.
Proof.
  unfold codenot. destruct (dischargevars fs e) as [fsx ex] eqn:Dx. intros H p K.
  destruct (dv_cases _ _ _ _ Dx) as [[-> ->]|[(_ & r & _ & Kx)|[[r Kx] _]]]; [|rewrite Kx in H; destruct (discharge2anyreg _ _); injection H as <- <-; discriminate K..].
  destruct (ek e) eqn:Ke; eauto; exfalso; try (destruct (discharge2anyreg _ _)); injection H as <- <-; discriminate K.
Qed.
Lemma not_good a : good a -> good (EUn UNot a).
Proof.
  intros IH fs fs' e P0 Nn Nl Nu Lf Q. assert (Lq: nactvar fs <= freereg fs) by lia. cbn [Gen_model.gen] in Q. bo Q G1. destruct (IH fs _ _ P0 Nn Nl Nu Lf G1) as (I0 & V & S).
  cbn [prefix] in Q. okeq Q. destruct (codenot_inv W E _ _ _ _ _ _ _ P0 Lq I0 (sh_vk _ _ _ S) Q) as (I1 & Et & Ef & T & K). pose proof (codenot_cat _ _ _ _ _ _ _ P0 Lq I0 Q) as Cat.
  assert (Ve: vty e = ety e) by (unfold vty; destruct (ek e); try contradiction; reflexivity).
  split; [|split].
  - exact I1.
  - rewrite Ve, T, V. reflexivity.
  - split; auto.
    + pose proof (codenot_jmp _ _ _ _ Q) as Cj. destruct (ek e); try contradiction; try exact Logic.I; cbn [shape_of]; [|destruct (Cj _ eq_refl) as [q Kq]; pose proof (sh_kind _ _ _ S) as Kk; rewrite Kq in Kk; rewrite Kk; reflexivity]. destruct K as (K1 & K2 & K3). pose proof (sh_kind _ _ _ S) as Kk.
      destruct (ek e0); cbn [lits] in K1, K2; try (destruct (K1 eq_refl)); try (destruct (K2 eq_refl)); try (rewrite Kk; reflexivity); try (rewrite (proj2 Kk); reflexivity); [|destruct (K3 _ eq_refl)].
      destruct Kk as [[_ ->]|[_ ->]]; reflexivity.
    + cbn [simple]. intros Sm. rewrite Et, Ef. destruct (sh_simple _ _ _ S Sm) as [-> ->]. auto.
    + intros L1 E1. rewrite Ve, T. destruct (ek e); try contradiction; try discriminate L1. rewrite Ef in E1. pose proof (sh_false _ _ _ S K E1) as N. unfold not_ty. rewrite N. destruct (none_of (vty e0) T_FALSISH); reflexivity.
    + intros L1 E1. rewrite Ve, T. destruct (ek e); try contradiction; try discriminate L1. rewrite Et in E1. pose proof (sh_true _ _ _ S K E1) as N. unfold not_ty. rewrite N. destruct (none_of (vty e0) T_TRUISH); reflexivity.
    + intros _ _. destruct (ek e); try contradiction; split; intros ? Q'; discriminate Q'.
Qed.
Lemma assert_good c a : good a -> simple a = true -> (shape_of a = Loc -> nothing_to_do c (styp a) = true) -> good (EUn (UAssert c) a).
Proof.
  intros IH Sm Lc fs fs' e P0 Nn Nl Nu Lf Q. assert (Lq: nactvar fs <= freereg fs) by lia. cbn [Gen_model.gen] in Q. bo Q G1. destruct (IH fs _ _ P0 Nn Nl Nu Lf G1) as (I0 & V & S).
  cbn [prefix] in Q. destruct (sh_simple _ _ _ S Sm) as [Et Ef]. destruct (sh_num _ _ _ S Et Ef) as [S1 S2]. pose proof (sh_kind _ _ _ S) as Kk.
  destruct (assert_inv W E _ _ _ _ _ c fs' e P0 Lq I0 Et Ef S1 S2) as (I1 & T & Et' & Ef' & K).
  { intros x [Hx|[Hx Lx]]; rewrite Hx in Kk; rewrite V; apply Lc; [apply Kk|]. destruct Kk as [[_ Kk]|[Kk _]]; [exact Kk|lia]. }
  { exact Q. }
  assert (Ve: vty e = ety e) by (unfold vty; destruct (ek e); try contradiction; reflexivity).
  split; [exact I1|]. split; [rewrite Ve, T, V; reflexivity|].
  destruct e as [k t f' ty]. cbn [ek et ef ety] in *. subst t f'. rewrite Nn in K.
  assert (Litk: match k with VKInt _ | VKFlt _ | VK _ => SH (EUn (UAssert c) a) fs' (mk k [] [] ty) | _ => True end).
  { assert (St: (exists i, ek e0 = VKInt i) \/ (exists i, ek e0 = VKFlt i) \/ (exists i, ek e0 = VK i) -> f = fs' /\ e0 = mk k [] [] ty).
    { intros H. unfold code_type_assertion, dischargevars in Q. destruct H as [[i H]|[[i H]|[i H]]]; rewrite H in Q; rewrite H in Q; destruct c; try discriminate Q; try (destruct (Z.eqb _ _); [|discriminate Q]); injection Q as <- <-; auto. }
    destruct k; try exact Logic.I; (destruct St as [-> ->]; [intuition eauto|]); destruct S as [A1 A2 A3 A4 A5 A6]; split; auto. }
  destruct k; try contradiction; try exact Litk.
  destruct K as [[Lx [K|K]]|[Lx K]].
  - rewrite K in Kk. destruct Kk as [_ Kk]. split; cbn; auto; try contradiction; [cbn; rewrite Kk; auto|intros _ _; split; intros ? Q'; discriminate Q'|apply cat_ok_other; discriminate].
  - rewrite K in Kk. destruct Kk as [[_ Kk]|[Kk _]]; [|lia]. split; cbn; auto; try contradiction; [cbn; rewrite Kk; auto|intros _ _; split; intros ? Q'; discriminate Q'|apply cat_ok_other; discriminate].
  - apply (sh_temporary _ _ _ S) in K. apply sh_nonreloc; [cbn; rewrite K; reflexivity|exact Lx].
Qed.

Lemma arith_good o a b : good a -> good b -> tame b = true -> good (EBin (BArith o) a b).
Proof.
  destruct PL as (PN & _). intros IHa IHb Tb fs fs' e P0 Nn Nl Nu Lf Q. assert (Lq: nactvar fs <= freereg fs) by lia. cbn [Gen_model.gen] in Q. bo Q G1. destruct (IHa fs _ _ P0 Nn Nl Nu Lf G1) as (I0 & V & S).
  rename e0 into ea. destruct (infix f (BArith o) ea) as [f1 e1] eqn:X. bo Q G2. rename e0 into e2, f0 into f2.
  assert (Hx: INV fs (freereg fs) f1 e1 (eval a) /\ first_op e1 /\ ety e1 = styp a /\ (forall n, tonumeral e1 = Some n -> f1 = f /\ e1 = ea)).
  { cbn [infix] in X. destruct (tonumeral ea) as [x|] eqn:T.
    - injection X as <- <-. destruct (tonumeral_spec _ _ T) as (Et & Ef & A & D & L & Vt & K). split; [exact I0|]. split; [|split; [rewrite <- Vt; exact V|auto]]. right. split; [exact Et|]. split; [exact Ef|].
      exists (Num x). split; [exact L|]. split; [eapply num_const; eauto|]. rewrite <- Vt. eapply num_hast; eauto.
    - destruct (exp2RK f ea) as [[f3 e3] k] eqn:X'. cbn [fst] in X. injection X as <- <-. destruct (exp2RK_inv W E _ _ _ _ _ _ _ _ P0 Lq I0 X') as [I1 O].
      assert (Ht: ety e3 = vty ea) by (unfold operand in O; destruct k; [rewrite O; reflexivity|destruct O as [-> _]; reflexivity]).
      split; [exact I1|]. split; [left; exists k; rewrite Ht; exact O|]. split; [congruence|]. intros m Tm. exfalso. destruct (tonumeral_spec _ _ Tm) as (_ & _ & _ & _ & L & _). unfold operand in O. destruct k; [rewrite O in L|destruct O as [O _]; rewrite O in L]; discriminate L. }
  destruct Hx as (I1 & Fo & T1 & Num1). destruct (inv_st _ _ _ _ _ I1) as (N1 & L1 & U1 & P1 & F1). assert (Lo: LO (nactvar fs) (eval b)) by (rewrite Nn; apply eval_lo; exact Tb).
  destruct (IHb f1 _ _ P1 ltac:(congruence) ltac:(congruence) ltac:(congruence) ltac:(lia) G2) as (I2 & V2 & S2).
  assert (Comp: codebinexpval f2 o e1 e2 = (fs', e) -> INV fs (freereg fs) fs' e (eval (EBin (BArith o) a b)) /\ vty e = styp (EBin (BArith o) a b) /\ SH (EBin (BArith o) a b) fs' e).
  { intros C. destruct (codebinexpval_inv W E _ _ _ _ _ _ _ _ _ _ _ P0 Lq PN I1 Fo I2 Lo C) as (I3 & p & -> & Np). split; [exact I3|]. split; [cbn; rewrite T1, V2; reflexivity|].
    apply sh_reloc; [reflexivity|]. intros c d N. destruct (Np _ N c d eq_refl). }
  cbn [posfix] in Q. destruct (tonumeral e1) as [x|] eqn:Tx; [|okeq Q; apply Comp; exact Q]. destruct (tonumeral e2) as [y|] eqn:Ty; [|okeq Q; apply Comp; exact Q].
  destruct (constfolding (fmod E) (fpow E) o x y) as [[nn|]| | |] eqn:Cf; cbn [bind] in Q; try discriminate Q; [|okeq Q; apply Comp; exact Q]. injection Q as <- <-.
  destruct (Num1 x eq_refl) as [-> ->]. destruct (tonumeral_spec _ _ Tx) as (Et & Ef & A & D & L & Vt & K).
  destruct (num_const _ _ _ _ _ _ I0 Tx) as (H1 & Ga & Fr & Lx). destruct (num_const _ _ _ _ _ _ I2 Ty) as (H2 & Gb & Fr2 & Ly).
  pose proof (seq_g W E fs (freereg fs) f (freereg f) f2 (eval a) (eval b) _ (fun _ _ v => v = Num x) _ Ga Gb Lq F1 H1 H2 Lo ltac:(auto)) as H.
  pose proof (grow_trans _ _ _ _ _ _ P0 Ga Gb) as G. cbn [app] in G.
  pose proof (fun w => fold_ok W (fmod E) (fpow E) (tmbin E) o x y w nn Cf) as Fd. pose proof (num_ty _ _ _ _ S Tx) as Nt1. pose proof (num_ty _ _ _ _ S2 Ty) as Nt2.
  assert (Hc: HC fs (freereg fs) f2 [] [] (eval (EBin (BArith o) a b)) (fun _ s o => o = Ok (Num nn, world s))).
  { eapply hc_ext; [apply (g_hc W E fs (freereg fs) f2 _ _ (fun p w => binary W E (BArith o) (fst p) (snd p) w) (fun _ s o => o = Ok (Num nn, world s)) H)|intros s O; apply pair_bind with (F := fun p w => binary W E (BArith o) (fst p) (snd p) w)].
    intros P s [v v'] X' [E1 E2]. cbn [fst snd] in *. subst v v'. cbn [binary]. apply Fd. }
  assert (Ty1: TY fs (snd (codebin o (vty ea) (vty e2))) (eval (EBin (BArith o) a b))).
  { eapply ty_then2; [apply (i_ty _ _ _ _ _ _ _ I0)|eapply ty_grow; [exact Ga|apply (i_ty _ _ _ _ _ _ _ I2)]|]. intros v v' w r w' Hv Hv' Eq. eapply generic_type; eauto. }
  assert (Tn: snd (codebin o (vty ea) (vty e2)) = match nn with NInt _ => T_INT | NFlt _ => T_FLT end).
  { apply numeral_ty; [apply bin_num_ty; assumption|]. eapply (generic_type unit (fmod E) (fpow E) (fun _ _ _ _ => Err EType) (fun _ _ _ => Err EType) o _ _ (Num x) (Num y) tt).
    - eapply num_hast; eauto.
    - eapply num_hast; eauto.
    - split; intros; discriminate.
    - apply (fold_ok unit _ _ _ o x y tt nn Cf). }
  rewrite Tn in Ty1. destruct (folded (EBin (BArith o) a b) fs (freereg fs) f2 ea nn _ Et Ef (fold_literal nn (proj2 (fold_ok unit (fmod E) (fpow E) (fun _ _ _ _ => Err EType) o x y tt nn Cf))) Ty1 G ltac:(congruence) Hc) as (R1 & R2 & R3).
  split; [exact R1|]. split; [|exact R3]. rewrite R2, <- Tn, V, V2. reflexivity.
Qed.
Lemma cmp_good o a b : good a -> good b -> tame b = true -> good (EBin (BCmp o) a b).
Proof.
  intros IHa IHb Tb fs fs' e P0 Nn Nl Nu Lf Q. assert (Lq: nactvar fs <= freereg fs) by lia. cbn [Gen_model.gen] in Q. bo Q G1. destruct (IHa fs _ _ P0 Nn Nl Nu Lf G1) as (I0 & V & S).
  rename e0 into ea. destruct (infix f (BCmp o) ea) as [f1 e1] eqn:X. bo Q G2. rename e0 into e2, f0 into f2.
  cbn [infix] in X. destruct (exp2RK f ea) as [[f3 e3] k] eqn:X'. cbn [fst] in X. injection X as -> ->. destruct (exp2RK_inv W E _ _ _ _ _ _ _ _ P0 Lq I0 X') as [I1 O].
  assert (Ht: ety e1 = vty ea) by (unfold operand in O; destruct k; [rewrite O; reflexivity|destruct O as [-> _]; reflexivity]). rewrite <- Ht in O.
  destruct (inv_st _ _ _ _ _ I1) as (N1 & L1 & U1 & P1 & F1). assert (Lo: LO (nactvar fs) (eval b)) by (rewrite Nn; apply eval_lo; exact Tb).
  destruct (IHb f1 _ _ P1 ltac:(congruence) ltac:(congruence) ltac:(congruence) ltac:(lia) G2) as (I2 & V2 & S2).
  cbn [posfix] in Q. okeq Q. destruct (codecomp_inv W E _ _ _ _ _ _ _ _ _ _ _ _ P0 Lq I1 O I2 Lo Q) as (I3 & p & ->).
  split; [exact I3|]. split; [reflexivity|]. split; cbn; auto; try contradiction; [intros _ _; split; intros ? Q'; discriminate Q'|apply cat_ok_other; discriminate].
Qed.
Lemma concat_good a b : good a -> good b -> tame b = true -> good (EBin BConcat a b).
Proof.
  destruct PL as (PN & _ & _ & PC). intros IHa IHb Tb fs fs' e P0 Nn Nl Nu Lf Q. assert (Lq: nactvar fs <= freereg fs) by lia. cbn [Gen_model.gen] in Q. bo Q G1. destruct (IHa fs _ _ P0 Nn Nl Nu Lf G1) as (I0 & V & S).
  rename e0 into ea. destruct (infix f BConcat ea) as [f1 e1] eqn:X. bo Q G2. rename e0 into e2, f0 into f2.
  cbn [infix] in X. destruct (exp2nextreg_inv W E _ _ _ _ _ _ _ P0 Lq I0 X) as (I1 & -> & F1).
  destruct (inv_st _ _ _ _ _ I1) as (N1 & L1 & U1 & P1 & _). assert (Lo: LO (nactvar fs) (eval b)) by (rewrite Nn; apply eval_lo; exact Tb).
  destruct (IHb f1 _ _ P1 ltac:(congruence) ltac:(congruence) ltac:(congruence) ltac:(lia) G2) as (I2 & V2 & S2). rewrite F1 in I2.
  destruct (concat_inv W E _ _ _ _ _ _ _ _ _ _ _ _ P0 Lq PC I1 F1 I2 Lo (sh_cat _ _ _ S2) Q) as (I3 & p & ->).
  split; [exact I3|]. split; [cbn; rewrite V, V2; reflexivity|]. apply sh_reloc; [reflexivity|]. intros c d N. unfold cat_ty. destruct (_ && _); auto.
Qed.
Lemma call_good g l : good g -> goods l -> tames l = true -> good (ECall g l).
Proof.
  intros IHa IHb Tb fs fs' e P0 Nn Nl Nu Lf Q. assert (Lq: nactvar fs <= freereg fs) by lia. cbn [Gen_model.gen] in Q. bo Q G1. destruct (IHa fs _ _ P0 Nn Nl Nu Lf G1) as (I0 & V & S).
  destruct (exp2nextreg f e0) as [f1 e1] eqn:X. destruct (exp2nextreg_inv W E _ _ _ _ _ _ _ P0 Lq I0 X) as (I1 & -> & F1). bo Q G2. cbn [reg_of ek] in Q. injection Q as <- <-.
  destruct (inv_st _ _ _ _ _ I1) as (N1 & L1 & U1 & P1 & _). assert (Lo: LO (nactvar fs) (evals l)) by (rewrite Nn; apply eval_lo; exact Tb).
  destruct (IHb f1 _ _ P1 ltac:(congruence) ltac:(congruence) ltac:(congruence) ltac:(lia) G2) as (Gr & F2 & H2). rewrite F1 in H2.
  split; [exact (call_inv W E _ _ _ _ _ _ _ _ P0 Lq I1 F1 Gr H2 Lo)|]. split; [reflexivity|]. apply sh_nonreloc; [reflexivity|lia].
Qed.
Lemma nil_goods : goods ANil.
Proof.
  intros fs fs' m P0 Nn Nl Nu Lf Q. cbn in Q. injection Q as <- <-. split; [apply grow_refl; exact P0|]. split; [lia|]. apply args_nil. exact P0.
Qed.
Lemma cons_goods a l : good a -> goods l -> tames l = true -> goods (ACons a l).
Proof.
  intros IHa IHb Tb fs fs' m P0 Nn Nl Nu Lf Q. assert (Lq: nactvar fs <= freereg fs) by lia. cbn [Gen_model.genargs] in Q. bo Q G1. destruct (IHa fs _ _ P0 Nn Nl Nu Lf G1) as (I0 & V & S).
  destruct (exp2nextreg f e) as [f1 e1] eqn:X. destruct (exp2nextreg_inv W E _ _ _ _ _ _ _ P0 Lq I0 X) as (I1 & -> & F1). bo Q G2. injection Q as <- <-.
  destruct (inv_st _ _ _ _ _ I1) as (N1 & L1 & U1 & P1 & _). assert (Lo: LO (nactvar fs) (evals l)) by (rewrite Nn; apply eval_lo; exact Tb).
  destruct (IHb f1 _ _ P1 ltac:(congruence) ltac:(congruence) ltac:(congruence) ltac:(lia) G2) as (Gr & F2 & H2). rewrite F1 in H2.
  pose proof (inv_grow _ _ _ _ _ _ _ I1 Logic.I) as Ga. cbn [et ef app] in Ga. pose proof (grow_trans _ _ _ _ _ _ P0 Ga Gr) as G.
  split; [exact G|]. split; [lia|]. exact (args_cons W E _ _ _ _ _ _ _ _ P0 Lq I1 Gr H2 Lo).
Qed.

(* the type of 'and' and 'or' when the first operand leaves no jumps *)
Lemma and_ty_none t1 t2 : t1 <> 0%Z -> none_of t1 T_FALSISH = true -> and_ty t1 t2 = t2.
Proof. intros N F. unfold and_ty. rewrite (none_falsish _ N F), (none_land0 _ _ F), Z.lor_0_r. reflexivity. Qed.
Lemma or_ty_none t1 t2 : t1 <> 0%Z -> none_of t1 T_TRUISH = true -> or_ty t1 t2 = t2.
Proof. intros N F. unfold or_ty. rewrite (none_truish _ N F), (none_land0 _ _ F), Z.lor_0_r. reflexivity. Qed.
Lemma and_good a b : good a -> good b -> tame b = true -> (shape_of a = Temp -> none_of (styp a) T_FALSISH = false) -> good (EBin BAnd a b).
Proof.
  intros IHa IHb Tb Td fs fs' e P0 Nn Nl Nu Lf Q. assert (Lq: nactvar fs <= freereg fs) by lia. cbn [Gen_model.gen] in Q. bo Q G1. destruct (IHa fs _ _ P0 Nn Nl Nu Lf G1) as (I0 & V & S).
  rename e0 into ea. destruct (infix f BAnd ea) as [f1 e1] eqn:X. bo Q G2. rename e0 into e2, f0 into f2. cbn [infix] in X.
  assert (Tm: temporary (nactvar fs) ea -> none_of (vty ea) T_FALSISH = false).
  { rewrite Nn. intros T. rewrite V. apply Td. eapply sh_temporary; eauto. }
  destruct (goiftrue_inv W E _ _ _ _ _ _ _ P0 Lq I0 (sh_vk _ _ _ S) Tm X) as (Ga & F1 & Et1 & T1 & Hc & Cl).
  pose proof (grow_pre _ _ _ _ Ga) as P1. pose proof (g_nact _ _ _ _ Ga) as N1. pose proof (g_lty _ _ _ _ Ga) as L1. pose proof (g_uty _ _ _ _ Ga) as U1.
  assert (Lo: LO (nactvar fs) (eval b)) by (rewrite Nn; apply eval_lo; exact Tb).
  destruct (IHb f1 _ _ P1 ltac:(congruence) ltac:(congruence) ltac:(congruence) ltac:(lia) G2) as (I2 & V2 & S2). rewrite F1 in I2.
  cbn [posfix] in Q. destruct (dischargevars f2 e2) as [f3 e3] eqn:X3. injection Q as <- <-.
  destruct (dischargevars_inv W E _ _ _ _ _ _ _ P1 I2 X3) as (I3 & D3 & V3 & Et3 & Ef3). destruct (inv_st _ _ _ _ _ I2) as (_ & _ & _ & P2 & _).
  pose proof (sh_discharge b f2 e2 f3 e3 P2 S2 X3 V3 Et3 Ef3) as S3.
  assert (Ve: vty e3 = ety e3) by (unfold vty; destruct (ek e3); cbn in D3; try contradiction; reflexivity).
  rewrite T1, V. rewrite <- Ve, V3, V2.
  assert (Ta: ef e1 = [] -> none_of (styp a) T_FALSISH = true).
  { intros E1. destruct (Cl E1) as [E2 [C|C]]; rewrite <- V; [apply (sh_true _ _ _ S C E2)|exact C]. }
  assert (Vm: forall k t f ty, discharged k -> vty (mk k t f ty) = ty) by (intros k t f' ty D; unfold vty; destruct k; cbn in D; try contradiction; reflexivity).
  split; [|split].
  - assert (Tr: TY fs (and_ty (styp a) (styp b)) (rand W (eval a) (eval b))).
    { rewrite <- V, <- V2. apply and_type; [apply (i_ty _ _ _ _ _ _ _ I0)|eapply ty_grow; [exact Ga|apply (i_ty _ _ _ _ _ _ _ I2)]]. }
    eapply inv_ext; [eapply (join_inv W E true fs (freereg fs) f1 (ef e1) (eval a) f3 e3 (eval b) (rand W (eval a) (eval b)) (and_ty (styp a) (styp b)) P0 Lq Ga Hc I3 D3 Lo Tr)|reflexivity].
    intros lo w. unfold rand. destruct (eval a lo w) as [[v w']| | |]; cbn; auto. destruct (truthy v); reflexivity.
  - rewrite Vm by exact D3. reflexivity.
  - assert (Te: ef e1 = [] -> and_ty (styp a) (styp b) = styp b) by (intros E1; apply and_ty_none; [apply styp_nz|auto]). match goal with |- SH _ _ (mk _ _ _ ?t) => change t with (and_ty (styp a) (styp b)) end.
    pose proof V3 as V4. rewrite V2 in V4. split; rewrite ?Vm by exact D3; cbn [ek et ef ety].
    + apply (sh_kind _ _ _ S3).
    + discriminate.
    + intros Li E1. apply app_eq_nil in E1 as [E1 E2]. rewrite (Te E2), <- V4. apply (sh_true _ _ _ S3 Li E1).
    + intros Li E1. pose proof (sh_false _ _ _ S3 Li E1) as F. rewrite V4 in F. unfold and_ty. destruct (none_of (styp a) T_TRUISH); [apply none_ft|]. apply none_lor; [exact F|apply none_ft].
    + intros E1 E2. apply app_eq_nil in E2 as [E2 E3]. rewrite (Te E3), <- V4, Ve. apply (sh_num _ _ _ S3 E1 E2).
    + intros p c d K E1 E2 N. cbn [ek et ef ety] in *. apply app_eq_nil in E2 as [E2 E3]. rewrite (Te E3), <- V4, Ve. exact (sh_cat _ _ _ S3 p c d K E1 E2 N).
Qed.
Lemma or_good a b : good a -> good b -> tame b = true -> (shape_of a = Temp -> none_of (styp a) T_TRUISH = false) -> good (EBin BOr a b).
Proof.
  intros IHa IHb Tb Td fs fs' e P0 Nn Nl Nu Lf Q. assert (Lq: nactvar fs <= freereg fs) by lia. cbn [Gen_model.gen] in Q. bo Q G1. destruct (IHa fs _ _ P0 Nn Nl Nu Lf G1) as (I0 & V & S).
  rename e0 into ea. destruct (infix f BOr ea) as [f1 e1] eqn:X. bo Q G2. rename e0 into e2, f0 into f2. cbn [infix] in X.
  assert (Tm: temporary (nactvar fs) ea -> none_of (vty ea) T_TRUISH = false).
  { rewrite Nn. intros T. rewrite V. apply Td. eapply sh_temporary; eauto. }
  destruct (goiffalse_inv W E _ _ _ _ _ _ _ P0 Lq I0 (sh_vk _ _ _ S) Tm X) as (Ga & F1 & Ef1 & T1 & Hc & Cl).
  pose proof (grow_pre _ _ _ _ Ga) as P1. pose proof (g_nact _ _ _ _ Ga) as N1. pose proof (g_lty _ _ _ _ Ga) as L1. pose proof (g_uty _ _ _ _ Ga) as U1.
  assert (Lo: LO (nactvar fs) (eval b)) by (rewrite Nn; apply eval_lo; exact Tb).
  destruct (IHb f1 _ _ P1 ltac:(congruence) ltac:(congruence) ltac:(congruence) ltac:(lia) G2) as (I2 & V2 & S2). rewrite F1 in I2.
  cbn [posfix] in Q. destruct (dischargevars f2 e2) as [f3 e3] eqn:X3. injection Q as <- <-.
  destruct (dischargevars_inv W E _ _ _ _ _ _ _ P1 I2 X3) as (I3 & D3 & V3 & Et3 & Ef3). destruct (inv_st _ _ _ _ _ I2) as (_ & _ & _ & P2 & _).
  pose proof (sh_discharge b f2 e2 f3 e3 P2 S2 X3 V3 Et3 Ef3) as S3.
  assert (Ve: vty e3 = ety e3) by (unfold vty; destruct (ek e3); cbn in D3; try contradiction; reflexivity).
  rewrite T1, V. rewrite <- Ve, V3, V2.
  assert (Ta: et e1 = [] -> none_of (styp a) T_TRUISH = true).
  { intros E1. destruct (Cl E1) as [E2 [C|C]]; rewrite <- V; [apply (sh_false _ _ _ S C E2)|exact C]. }
  assert (Vm: forall k t f ty, discharged k -> vty (mk k t f ty) = ty) by (intros k t f' ty D; unfold vty; destruct k; cbn in D; try contradiction; reflexivity).
  split; [|split].
  - assert (Tr: TY fs (or_ty (styp a) (styp b)) (ror W (eval a) (eval b))).
    { rewrite <- V, <- V2. apply or_type; [apply (i_ty _ _ _ _ _ _ _ I0)|eapply ty_grow; [exact Ga|apply (i_ty _ _ _ _ _ _ _ I2)]]. }
    eapply inv_ext; [eapply (join_inv W E false fs (freereg fs) f1 (et e1) (eval a) f3 e3 (eval b) (ror W (eval a) (eval b)) (or_ty (styp a) (styp b)) P0 Lq Ga Hc I3 D3 Lo Tr)|reflexivity].
    intros lo w. unfold ror. destruct (eval a lo w) as [[v w']| | |]; cbn; auto. destruct (truthy v); reflexivity.
  - rewrite Vm by exact D3. reflexivity.
  - assert (Te: et e1 = [] -> or_ty (styp a) (styp b) = styp b) by (intros E1; apply or_ty_none; [apply styp_nz|auto]). match goal with |- SH _ _ (mk _ _ _ ?t) => change t with (or_ty (styp a) (styp b)) end.
    pose proof V3 as V4. rewrite V2 in V4. split; rewrite ?Vm by exact D3; cbn [ek et ef ety].
    + apply (sh_kind _ _ _ S3).
    + discriminate.
    + intros Li E1. pose proof (sh_true _ _ _ S3 Li E1) as F. rewrite V4 in F. unfold or_ty. destruct (none_of (styp a) T_FALSISH); [apply none_tf|]. apply none_lor; [exact F|apply none_tf].
    + intros Li E1. apply app_eq_nil in E1 as [E1 E2]. rewrite (Te E2), <- V4. apply (sh_false _ _ _ S3 Li E1).
    + intros E1 E2. apply app_eq_nil in E1 as [E1 E3]. rewrite (Te E3), <- V4, Ve. apply (sh_num _ _ _ S3 E1 E2).
    + intros p c d K E1 E2 N. cbn [ek et ef ety] in *. apply app_eq_nil in E1 as [E1 E3]. rewrite (Te E3), <- V4, Ve. exact (sh_cat _ _ _ S3 p c d K E1 E2 N).
Qed.
Lemma tested_temp a m : tested n lt ut a m = true -> shape_of a = Temp -> none_of (styp a) m = false.
Proof. unfold tested. intros H S. rewrite S in H. destruct (none_of (styp a) m); [discriminate H|reflexivity]. Qed.
Theorem gen_good : (forall x, tame x = true -> good x) /\ (forall l, tames l = true -> goods l).
Proof.
  apply expr_args_ind; cbn [Gen_spec.tame Gen_spec.tames]; intros.
  - apply (lit_good ENil Nil VNil T_NIL); try reflexivity; try discriminate.
  - apply (lit_good ETrue (Bool true) VTrue T_TRUE); try reflexivity; try discriminate.
  - apply (lit_good EFalse (Bool false) VFalse T_FALSE); try reflexivity; try discriminate.
  - apply (lit_good (EInt i) (I i) (VKInt i) T_INT); try reflexivity; try discriminate.
  - apply (lit_good (EFlt f) (F f) (VKFlt f) T_FLT); try reflexivity; try discriminate. intros f' Q. injection Q as <-. exact H.
  - apply str_good.
  - apply local_good. apply Nat.ltb_lt. exact H.
  - apply upval_good.
  - apply global_good.
  - apply paren_good; auto.
  - apply andb_prop in H1 as [T1 T2]. apply index_good; auto.
  - destruct o; [apply unarith_good|apply len_good|apply not_good|]; auto. apply andb_prop in H0 as [H0 H2]. apply andb_prop in H0 as [H0 H1]. apply assert_good; auto. intros Sh. rewrite Sh in H2. exact H2.
  - destruct o; [apply andb_prop in H1 as [T1 T2]; apply arith_good; auto|apply andb_prop in H1 as [T1 T2]; apply concat_good; auto|apply andb_prop in H1 as [T1 T2]; apply cmp_good; auto|apply andb_prop in H1 as [H1 T3]; apply andb_prop in H1 as [T1 T2]; apply and_good; auto; apply tested_temp; exact T3..|].
    apply andb_prop in H1 as [H1 T3]; apply andb_prop in H1 as [T1 T2]; apply or_good; auto; apply tested_temp; exact T3.
  - apply andb_prop in H1 as [T1 T2]. apply call_good; auto.
  - apply nil_goods.
  - apply andb_prop in H1 as [T1 T2]. apply cons_goods; auto.
Qed.
End main.
End types.
