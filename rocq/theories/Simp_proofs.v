(* Proofs about the simplification of expressions (C67) *)

Require Import Verif.Base Verif.Base_facts Verif.IntArith_model Verif.IntArith_spec Verif.IntArith_proofs.
Require Import Verif.Simp_model Verif.Simp_spec.
From Coq Require Import ZArith List Bool Lia.
Import ListNotations.
Local Open Scope Z_scope.
Local Open Scope outcome_scope.

Lemma s64_shiftr : forall x, is_s64 x <-> (Z.shiftr x 63 = 0 \/ Z.shiftr x 63 = -1).
Proof.
  intros x. rewrite Z.shiftr_div_pow2 by lia. unfold is_s64, minint, maxint.
  change (2 ^ 63) with 9223372036854775808.
  pose proof (Z.div_mod x 9223372036854775808 ltac:(lia)).
  pose proof (Z.mod_pos_bound x 9223372036854775808 ltac:(lia)).
  split; intros; [|lia]. assert (x / 9223372036854775808 = 0 \/ x / 9223372036854775808 = -1) by lia. auto.
Qed.

Lemma land_range : forall a b, is_s64 a -> is_s64 b -> is_s64 (Z.land a b).
Proof.
  intros a b A B. apply s64_shiftr in A, B. apply s64_shiftr. rewrite Z.shiftr_land.
  destruct A as [-> | ->], B as [-> | ->]; simpl; auto.
Qed.
Lemma lor_range : forall a b, is_s64 a -> is_s64 b -> is_s64 (Z.lor a b).
Proof.
  intros a b A B. apply s64_shiftr in A, B. apply s64_shiftr. rewrite Z.shiftr_lor.
  destruct A as [-> | ->], B as [-> | ->]; simpl; auto.
Qed.
Lemma lxor_range : forall a b, is_s64 a -> is_s64 b -> is_s64 (Z.lxor a b).
Proof.
  intros a b A B. apply s64_shiftr in A, B. apply s64_shiftr. rewrite Z.shiftr_lxor.
  destruct A as [-> | ->], B as [-> | ->]; simpl; auto.
Qed.

Lemma shiftl_same : forall a b r, 0 <= a -> is_s64 a -> is_s64 b -> Simp_model.luaV_shiftl a b = Ok r ->
  IntArith_model.luaV_shiftl a b = r /\ is_s64 r.
Proof.
  intros a b r P A B. unfold Simp_model.luaV_shiftl, IntArith_model.luaV_shiftl, NBITS, intop.
  change (- (64)) with (-64).
  destruct (b <? 0) eqn:E1; [apply Z.ltb_lt in E1|apply Z.ltb_ge in E1].
  - destruct (b <=? -64) eqn:E2; [apply Z.leb_le in E2|apply Z.leb_gt in E2]; intros H; inversion H; subst.
    + split; [reflexivity|]. unfold is_s64, minint, maxint. lia.
    + unfold is_s64, minint, maxint in *.
      rewrite (u64_nonneg a) by (unfold maxint; lia). rewrite (u64_nonneg (- b)) by (unfold maxint; lia).
      assert (R : 0 <= Z.shiftr a (- b) <= a).
      { rewrite Z.shiftr_div_pow2 by lia. assert (1 <= 2 ^ (- b)) by (change 1 with (2 ^ 0); apply Z.pow_le_mono_r; lia).
        split; [apply Z.div_pos; lia|]. apply Z.div_le_upper_bound; nia. }
      split; [|lia]. apply s64_id. unfold is_s64, minint, maxint. lia.
  - destruct (64 <=? b) eqn:E2; [|apply Z.leb_gt in E2].
    + intros H. inversion H; subst. split; [reflexivity|]. unfold is_s64, minint, maxint. lia.
    + replace (a <? 0) with false by (symmetry; apply Z.ltb_ge; lia).
      intros H. apply c_signed_inv in H. destruct H as [-> H].
      unfold is_s64, minint, maxint in A, B.
      rewrite (u64_nonneg a) by (unfold maxint; lia). rewrite (u64_nonneg b) by (unfold maxint; lia).
      split; [apply s64_id; exact H|exact H].
Qed.

Definition iop_of (op : binop) : option iop :=
  match op with
  | BAdd => Some OpAdd | BSub => Some OpSub | BMul => Some OpMul | BMod => Some OpMod | BIdiv => Some OpIDiv
  | BAnd_ => Some OpBand | BOr_ => Some OpBor | BXor => Some OpBxor | BShl => Some OpShl | BShr => Some OpShr
  | _ => None
  end.

Lemma int2_ok : forall op o a b r, is_s64 a -> is_s64 b -> iop_of op = Some o ->
  (match op with BShl | BShr => 0 <= a | _ => True end) ->
  intarith2 op a b = Ok r -> intarith o a b = Ok r /\ is_s64 r.
Proof.
  intros op o a b r A B O S H. destruct op; inversion O; subst o; cbn [intarith2 intarith] in *.
  - apply c_signed_inv in H. destruct H as [-> H]. rewrite (wraps_fun _ _ (int_add_spec a b)), s64_id by exact H. auto.
  - apply c_signed_inv in H. destruct H as [-> H]. rewrite (wraps_fun _ _ (int_sub_spec a b)), s64_id by exact H. auto.
  - apply c_signed_inv in H. destruct H as [-> H]. rewrite (wraps_fun _ _ (int_mul_spec a b)), s64_id by exact H. auto.
  - split; [exact H|]. unfold Simp_model.luaV_mod in H.
    destruct (u64 (u64 b + 1) <=? 1).
    + destruct (b =? 0); inversion H; subst. unfold is_s64, minint, maxint. lia.
    + destruct (c_signed (Z.rem a b)) as [q| | |] eqn:E; cbn [bind] in H; try discriminate.
      apply c_signed_inv in E. destruct E as [-> E].
      destruct (negb (Z.rem a b =? 0) && (Z.lxor (Z.rem a b) b <? 0)).
      * apply c_signed_inv in H. destruct H as [-> H]. exact H.
      * inversion H; subst. exact E.
  - unfold Simp_model.luaV_idiv in H. unfold IntArith_model.luaV_idiv.
    destruct (u64 (u64 b + 1) <=? 1).
    + destruct (b =? 0); [discriminate|]. apply c_signed_inv in H. destruct H as [-> H].
      rewrite (wraps_fun _ _ (int_sub_spec 0 a)), s64_id by exact H. auto.
    + split; [exact H|].
      destruct (c_signed (Z.quot a b)) as [q| | |] eqn:E; cbn [bind] in H; try discriminate.
      apply c_signed_inv in E. destruct E as [-> E].
      destruct ((Z.lxor a b <? 0) && negb (Z.rem a b =? 0)).
      * apply c_signed_inv in H. destruct H as [-> H]. exact H.
      * inversion H; subst. exact E.
  - inversion H; subst. pose proof (land_range a b A B) as R. split; [|exact R]. f_equal.
    destruct (int_band_spec a b) as [R2 T]. apply s64_ext; auto. intros i Hi. rewrite T by exact Hi. now rewrite Z.land_spec.
  - inversion H; subst. pose proof (lor_range a b A B) as R. split; [|exact R]. f_equal.
    destruct (int_bor_spec a b) as [R2 T]. apply s64_ext; auto. intros i Hi. rewrite T by exact Hi. now rewrite Z.lor_spec.
  - inversion H; subst. pose proof (lxor_range a b A B) as R. split; [|exact R]. f_equal.
    destruct (int_bxor_spec a b) as [R2 T]. apply s64_ext; auto. intros i Hi. rewrite T by exact Hi. now rewrite Z.lxor_spec.
  - destruct (shiftl_same a b r S A B H) as [E R]. unfold op_shl. rewrite E. auto.
  - unfold op_shr. destruct (c_signed (- b)) as [b'| | |] eqn:E; cbn [bind] in *; try discriminate.
    apply c_signed_inv in E. destruct E as [-> E].
    destruct (shiftl_same a (- b) r S A E H) as [E2 R]. rewrite E2. auto.
Qed.

Lemma minus_ok : forall a r, intarith1 UMinus a = Ok r -> intarith OpUnm a a = Ok r /\ is_s64 r.
Proof.
  intros a r H. change (c_signed (0 - a) = Ok r) in H. apply c_signed_inv in H. destruct H as [E H].
  rewrite <- E in H. split; [|exact H]. change (Ok (int_unm a) = Ok r). f_equal.
  transitivity (s64 (- a)); [exact (wraps_fun _ _ (int_unm_spec a))|].
  assert (X : - a = r) by lia. rewrite X. apply s64_id. exact H.
Qed.

Lemma bnot_value : forall a, int_bnot a = s64 (Z.lxor (two64 - 1) (u64 a)).
Proof. intros a. unfold int_bnot, intop. replace (u64 (two64 - 1)) with (two64 - 1) by (vm_compute; reflexivity). reflexivity. Qed.

Lemma bnot_ok : forall a r, intarith1 UBnot a = Ok r -> intarith OpBnot a a = Ok r /\ is_s64 r.
Proof.
  intros a r H. unfold intarith1 in H. unfold intarith. rewrite bnot_value.
  generalize (s64_range (Z.lxor (two64 - 1) (u64 a))). generalize dependent (s64 (Z.lxor (two64 - 1) (u64 a))).
  intros z H R. inversion H; subst. auto.
Qed.

Scheme expr_mut := Induction for expr Sort Prop
  with exprs_mut := Induction for exprs Sort Prop
  with suffixes_mut := Induction for suffixes Sort Prop.

Section P.
  Variable F : Type.
  Variable num1 : unop -> F -> F.
  Variable num2 : binop -> F -> F -> F.
  Variable i2f : Z -> F.
  Variable f2i : F -> option Z.
  Hypothesis f2i_range : forall f i, f2i f = Some i -> is_s64 i.
  Variable W : Type.
  Variable lit : nat -> nat.
  Variable name : nat -> W -> outcome (value F * W).
  Variable other2 : binop -> value F -> value F -> W -> outcome (value F * W).
  Variable other1 : unop -> value F -> W -> outcome (value F * W).
  Variable index : value F -> value F -> W -> outcome (value F * W).
  Variable call : value F -> list (value F) -> W -> outcome (value F * W).
  Variable table : list (value F) -> W -> outcome (value F * W).
  Variable truth : value F -> bool.
  Variable w0 : W.

  Notation eval := (eval F num1 num2 i2f f2i W lit name other2 other1 index call table truth).
  Notation evals := (evals F num1 num2 i2f f2i W lit name other2 other1 index call table truth).
  Notation follow := (follow F num1 num2 i2f f2i W lit name other2 other1 index call table truth).
  Notation concat_values := (concat_values F num2 i2f f2i W other2).
  Notation process := (process F num1 num2 i2f f2i).
  Notation process_list := (process_list F num1 num2 i2f f2i).
  Notation process_suffixes := (process_suffixes F num1 num2 i2f f2i).
  Notation fine := (fine F num1 num2 i2f f2i W lit name other2 other1 index call table truth).
  Notation fines := (fines F num1 num2 i2f f2i W lit name other2 other1 index call table truth).
  Notation finess := (finess F num1 num2 i2f f2i W lit name other2 other1 index call table truth).

  Definition val (l : literal F) : value F :=
    match l with LInt _ i => VInt F i | LFlt _ f => VFlt F f | LOther _ n => VOther F (lit n) end.
  Definition ranged (l : literal F) : Prop := match l with LInt _ i => is_s64 i | _ => True end.

  Lemma eval_lit : forall l w, eval (ELit F l) w = Ok (val l, w).
  Proof. intros [| |] w; reflexivity. Qed.

  Lemma evals_step : forall x l w, evals (ECons F x l) w =
    do '(v, w1) <- eval x w; do '(vs, w2) <- evals l w1; Ok (v :: vs, w2).
  Proof. reflexivity. Qed.
  Lemma and_step : forall a b w, eval (EBin F BAnd a b) w =
    do '(v, w1) <- eval a w; if truth v then eval b w1 else Ok (v, w1).
  Proof. reflexivity. Qed.
  Lemma or_step : forall a b w, eval (EBin F BOr a b) w =
    do '(v, w1) <- eval a w; if truth v then Ok (v, w1) else eval b w1.
  Proof. reflexivity. Qed.
  Lemma bin_step : forall op a b w, match op with BAnd | BOr => False | _ => True end -> eval (EBin F op a b) w =
    do '(v, w1) <- eval a w; do '(u, w2) <- eval b w1; binary F num2 i2f f2i W other2 op v u w2.
  Proof. intros op a b w H. destruct op; try contradiction; reflexivity. Qed.
  Lemma un_step : forall op a w, eval (EUn F op a) w =
    do '(v, w1) <- eval a w; unary F num1 f2i W other1 op v w1.
  Proof. reflexivity. Qed.
  Lemma econcat_step : forall l w, eval (EConcat F l) w = do '(vs, w1) <- evals l w; concat_values vs w1.
  Proof. reflexivity. Qed.
  Lemma table_step : forall l w, eval (ETable F l) w = do '(vs, w1) <- evals l w; table vs w1.
  Proof. reflexivity. Qed.
  Lemma suffixed_step : forall a s w, eval (ESuffixed F a s) w = do '(v, w1) <- eval a w; follow v s w1.
  Proof. reflexivity. Qed.
  Lemma index_step : forall v k s w, follow v (SIndex F k s) w =
    do '(u, w1) <- eval k w; do '(r, w2) <- index v u w1; follow r s w2.
  Proof. reflexivity. Qed.
  Lemma call_step : forall v l s w, follow v (SCall F l s) w =
    do '(us, w1) <- evals l w; do '(r, w2) <- call v us w1; follow r s w2.
  Proof. reflexivity. Qed.

  Lemma p_bin : forall op a b, op <> BConcat -> fst (process (EBin F op a b)) =
    do a' <- fst (process a); do b' <- fst (process b);
    match a', b' with
    | ELit _ l1, ELit _ l2 =>
        if arithmetic op then
          do r <- rawarith2 F num2 i2f f2i op l1 l2;
          match r with Some l => Ok (ELit F l) | None => Ok (EBin F op a' b') end
        else Ok (EBin F op a' b')
    | _, _ => Ok (EBin F op a' b')
    end.
  Proof. intros op a b H. destruct op; try contradiction; reflexivity. Qed.
  Lemma p_concat1 : forall a b, fst (process (EBin F BConcat a b)) =
    do la <- snd (process a); do lb <- snd (process b); Ok (EConcat F (Simp_model.app F la lb)).
  Proof. reflexivity. Qed.
  Lemma p_concat2 : forall a b, snd (process (EBin F BConcat a b)) =
    do la <- snd (process a); do lb <- snd (process b); Ok (Simp_model.app F la lb).
  Proof. reflexivity. Qed.
  Lemma p_un : forall op a, fst (process (EUn F op a)) =
    do a' <- fst (process a);
    match a', op with
    | ELit _ l, UMinus | ELit _ l, UBnot =>
        do r <- rawarith1 F num1 f2i op l;
        match r with Some l' => Ok (ELit F l') | None => Ok (EUn F op a') end
    | _, _ => Ok (EUn F op a')
    end.
  Proof. reflexivity. Qed.
  Lemma p_econcat : forall l, fst (process (EConcat F l)) = do l' <- process_list l; Ok (EConcat F l').
  Proof. reflexivity. Qed.
  Lemma p_table : forall l, fst (process (ETable F l)) = do l' <- process_list l; Ok (ETable F l').
  Proof. reflexivity. Qed.
  Lemma p_suffixed : forall a s, fst (process (ESuffixed F a s)) =
    do a' <- fst (process a); do s' <- process_suffixes s;
    match s with SNil _ => Ok a' | _ => Ok (ESuffixed F a' s') end.
  Proof. reflexivity. Qed.
  Lemma pl_cons : forall e l, process_list (ECons F e l) =
    do e1 <- fst (process e); do l1 <- process_list l; Ok (ECons F e1 l1).
  Proof. reflexivity. Qed.
  Lemma ps_index : forall k s, process_suffixes (SIndex F k s) =
    do k1 <- fst (process k); do s1 <- process_suffixes s; Ok (SIndex F k1 s1).
  Proof. reflexivity. Qed.
  Lemma ps_call : forall l s, process_suffixes (SCall F l s) =
    do l1 <- process_list l; do s1 <- process_suffixes s; Ok (SCall F l1 s1).
  Proof. reflexivity. Qed.

  Lemma to_int_val : forall l, to_integer F f2i (val l) = tointegerns F f2i l.
  Proof. intros [| |]; reflexivity. Qed.
  Lemma to_num_val : forall l, to_number F i2f (val l) = tonumberns F i2f l.
  Proof. intros [| |]; reflexivity. Qed.
  Lemma to_int_range : forall l i, ranged l -> tointegerns F f2i l = Some i -> is_s64 i.
  Proof. intros [x|f|n] i R H; simpl in *; try discriminate; [inversion H; subst; exact R|eauto]. Qed.

  Lemma raw2_ok : forall op l1 l2 l, ranged l1 -> ranged l2 -> arithmetic op = true ->
    (match op with BShl | BShr => nonneg F f2i (val l1) | _ => True end) ->
    rawarith2 F num2 i2f f2i op l1 l2 = Ok (Some l) ->
    arith F num2 i2f f2i op (val l1) (val l2) = Some (Ok (val l)) /\ ranged l.
  Proof.
    intros op l1 l2 l R1 R2 AR S H.
    assert (BIT : forall o, iop_of op = Some o ->
      match tointegerns F f2i l1, tointegerns F f2i l2 with
      | Some i1, Some i2 => do i <- intarith2 op i1 i2; Ok (Some (LInt F i))
      | _, _ => Ok None
      end = Ok (Some l) -> on_integers F f2i o (val l1) (val l2) = Some (Ok (val l)) /\ ranged l).
    { intros o O E. unfold on_integers. rewrite !to_int_val.
      destruct (tointegerns F f2i l1) as [i1|] eqn:E1; [|discriminate].
      destruct (tointegerns F f2i l2) as [i2|] eqn:E2; [|discriminate].
      destruct (intarith2 op i1 i2) as [i| | |] eqn:E3; cbn [bind] in E; try discriminate. inversion E; subst.
      assert (SH : match op with BShl | BShr => 0 <= i1 | _ => True end).
      { destruct op; auto; apply S; rewrite to_int_val; exact E1. }
      destruct (int2_ok op o i1 i2 i (to_int_range _ _ R1 E1) (to_int_range _ _ R2 E2) O SH E3) as [Q1 Q2].
      rewrite Q1. split; [reflexivity|exact Q2]. }
    assert (FLO : match tonumberns F i2f l1, tonumberns F i2f l2 with
      | Some n1, Some n2 => Ok (Some (LFlt F (num2 op n1 n2)))
      | _, _ => Ok None
      end = Ok (Some l) -> on_floats F num2 i2f op (val l1) (val l2) = Some (Ok (val l)) /\ ranged l).
    { intros E. unfold on_floats. rewrite !to_num_val.
      destruct (tonumberns F i2f l1) as [x1|]; [|discriminate]. destruct (tonumberns F i2f l2) as [x2|]; [|discriminate].
      inversion E; subst. split; [reflexivity|exact Logic.I]. }
    assert (EIT : forall o, iop_of op = Some o -> match op with BShl | BShr => False | _ => True end ->
      match l1, l2 with
      | LInt _ i1, LInt _ i2 => do i <- intarith2 op i1 i2; Ok (Some (LInt F i))
      | _, _ =>
        match tonumberns F i2f l1, tonumberns F i2f l2 with
        | Some n1, Some n2 => Ok (Some (LFlt F (num2 op n1 n2)))
        | _, _ => Ok None
        end
      end = Ok (Some l) -> on_either F num2 i2f o op (val l1) (val l2) = Some (Ok (val l)) /\ ranged l).
    { intros o O NS E. unfold on_either. destruct l1 as [i1|f1|n1], l2 as [i2|f2|n2]; try (apply FLO; exact E).
      cbn [val]. destruct (intarith2 op i1 i2) as [i| | |] eqn:E3; cbn [bind] in E; try discriminate.
      inversion E; subst.
      assert (SH : match op with BShl | BShr => 0 <= i1 | _ => True end) by (destruct op; auto; contradiction).
      destruct (int2_ok op o i1 i2 i R1 R2 O SH E3) as [Q1 Q2]. rewrite Q1. split; [reflexivity|exact Q2]. }
    destruct op; try discriminate; cbn [rawarith2 arith] in *; eauto.
  Qed.

  Lemma raw1_ok : forall op l l', ranged l -> (op = UMinus \/ op = UBnot) ->
    rawarith1 F num1 f2i op l = Ok (Some l') ->
    arith1 F num1 f2i op (val l) = Some (Ok (val l')) /\ ranged l'.
  Proof.
    intros op l l' R [-> | ->] H; cbn [rawarith1 arith1] in *.
    - destruct l as [i|f|n]; cbn [val]; try discriminate.
      + destruct (intarith1 UMinus i) as [r| | |] eqn:E; cbn [bind] in H; try discriminate. inversion H; subst.
        destruct (minus_ok _ _ E) as [Q1 Q2]. rewrite Q1. split; [reflexivity|exact Q2].
      + inversion H; subst. split; [reflexivity|exact Logic.I].
    - unfold on_integers. rewrite to_int_val. destruct (tointegerns F f2i l) as [i|] eqn:E1; [|discriminate].
      destruct (intarith1 UBnot i) as [r| | |] eqn:E; cbn [bind] in H; try discriminate. inversion H; subst.
      destruct (bnot_ok _ _ E) as [Q1 Q2]. rewrite Q1. split; [reflexivity|exact Q2].
  Qed.

  Definition is_concat (e : expr F) : bool := match e with EBin _ BConcat _ _ => true | _ => false end.

  Lemma snd_other : forall e, is_concat e = false -> snd (process e) = do x <- fst (process e); Ok (ECons F x (ENil F)).
  Proof. intros e H. destruct e as [l|n|op a b|op a|l|a s|l]; try reflexivity. destruct op; try reflexivity. discriminate. Qed.

  Lemma one_operand : forall x w, (do '(vs, w1) <- evals (ECons F x (ENil F)) w; concat_values vs w1) = eval x w.
  Proof.
    intros x w. rewrite evals_step. destruct (eval x w) as [[v w1]| | |]; reflexivity.
  Qed.

  Definition good (e : expr F) : Prop := fine e ->
    (forall e', fst (process e) = Ok e' -> (forall w, eval e' w = eval e w) /\
       (forall l, e' = ELit F l -> ranged l /\ constant F e = true)) /\
    (forall l, snd (process e) = Ok l -> (exists x l', l = ECons F x l') /\
       forall w, (do '(vs, w1) <- evals l w; concat_values vs w1) = eval e w).

  (* enough for everything but concatenations *)
  Lemma good_other : forall e, is_concat e = false -> (fine e -> forall e', fst (process e) = Ok e' ->
    (forall w, eval e' w = eval e w) /\ (forall l, e' = ELit F l -> ranged l /\ constant F e = true)) -> good e.
  Proof.
    intros e N H Fi. specialize (H Fi). split; [exact H|]. rewrite (snd_other e N).
    intros l E. destruct (fst (process e)) as [x| | |]; cbn [bind] in E; try discriminate. inversion E; subst.
    destruct (H x eq_refl) as [H1 _]. split; [eauto|]. intros w. rewrite one_operand. apply H1.
  Qed.

  Lemma evals_cons : forall x l w vs w1, evals (ECons F x l) w = Ok (vs, w1) -> exists v vs', vs = v :: vs'.
  Proof.
    intros x l w vs w1 H. rewrite evals_step in H. destruct (eval x w) as [[v wa]| | |]; cbn [bind] in H; try discriminate.
    destruct (evals l wa) as [[us wb]| | |]; cbn [bind] in H; try discriminate. inversion H; subst. eauto.
  Qed.

  Lemma bin_good : forall op a b, good a -> good b -> good (EBin F op a b).
  Proof.
    intros op a b HA HB.
    destruct (is_concat (EBin F op a b)) eqn:EC.
    - assert (op = BConcat) by (destruct op; try discriminate; reflexivity). subst op.
      intros [Fa [Fb Fc]]. destruct (HA Fa) as [A1 _]. destruct (HB Fb) as [_ B2].
      assert (NC : is_concat a = false) by (destruct a as [| |[]| | | |]; try reflexivity; contradiction).
      assert (KEY : forall la lb, snd (process a) = Ok la -> snd (process b) = Ok lb ->
        (exists x l', Simp_model.app F la lb = ECons F x l') /\
        forall w, (do '(vs, w1) <- evals (Simp_model.app F la lb) w; concat_values vs w1) = eval (EBin F BConcat a b) w).
      { intros la lb Ea Eb. rewrite (snd_other a NC) in Ea.
        destruct (fst (process a)) as [a'| | |]; cbn [bind] in Ea; try discriminate. inversion Ea; subst.
        destruct (A1 a' eq_refl) as [A1' _]. destruct (B2 lb Eb) as [[x [l' ->]] B2'].
        cbn [Simp_model.app]. split; [eauto|]. intros w. rewrite evals_step, (bin_step BConcat) by exact Logic.I.
        rewrite A1'. destruct (eval a w) as [[v w1]| | |]; cbn [bind]; try reflexivity.
        rewrite <- B2'.
        destruct (evals (ECons F x l') w1) as [[vs w2]| | |] eqn:EV; cbn [bind]; try reflexivity.
        destruct (evals_cons _ _ _ _ _ EV) as [u [us ->]]. reflexivity. }
      split.
      + intros e' E. rewrite p_concat1 in E.
        destruct (snd (process a)) as [la| | |]; cbn [bind] in E; try discriminate.
        destruct (snd (process b)) as [lb| | |]; cbn [bind] in E; try discriminate. inversion E; subst.
        destruct (KEY la lb eq_refl eq_refl) as [K1 K2]. split; [exact K2|]. intros l X. discriminate.
      + intros l E. rewrite p_concat2 in E.
        destruct (snd (process a)) as [la| | |]; cbn [bind] in E; try discriminate.
        destruct (snd (process b)) as [lb| | |]; cbn [bind] in E; try discriminate. inversion E; subst.
        apply KEY; reflexivity.
    - apply good_other; [exact EC|]. intros [Fa [Fb Fs]] e' E.
      destruct (HA Fa) as [A1 _]. destruct (HB Fb) as [B1 _].
      assert (E2 : exists a' b', fst (process a) = Ok a' /\ fst (process b) = Ok b' /\
        match a', b' with
        | ELit _ l1, ELit _ l2 =>
            if arithmetic op then
              do r <- rawarith2 F num2 i2f f2i op l1 l2;
              match r with Some l => Ok (ELit F l) | None => Ok (EBin F op a' b') end
            else Ok (EBin F op a' b')
        | _, _ => Ok (EBin F op a' b')
        end = Ok e').
      { rewrite p_bin in E by (intros ->; discriminate).
        destruct (fst (process a)) as [a'| | |]; cbn [bind] in E; try discriminate.
        destruct (fst (process b)) as [b'| | |]; cbn [bind] in E; try discriminate.
        exists a', b'. auto. }
      destruct E2 as [a' [b' [X1 [X2 E2]]]]. clear E.
      destruct (A1 a' X1) as [A2 A3]. destruct (B1 b' X2) as [B2 B3].
      assert (SAME : forall w, eval (EBin F op a' b') w = eval (EBin F op a b) w).
      { intros w. destruct op; rewrite ?and_step, ?or_step, ?bin_step by exact Logic.I; rewrite A2;
          destruct (eval a w) as [[v w1]| | |]; cbn [bind]; rewrite ?B2; reflexivity. }
      assert (LEFT : e' = EBin F op a' b' -> (forall w, eval e' w = eval (EBin F op a b) w) /\
        (forall l, e' = ELit F l -> ranged l /\ constant F (EBin F op a b) = true)).
      { intros ->. split; [exact SAME|]. discriminate. }
      destruct a' as [l1| | | | | |]; try (apply LEFT; inversion E2; reflexivity).
      destruct b' as [l2| | | | | |]; try (apply LEFT; inversion E2; reflexivity).
      destruct (arithmetic op) eqn:AR; [|apply LEFT; inversion E2; reflexivity].
      destruct (rawarith2 F num2 i2f f2i op l1 l2) as [[l|]| | |] eqn:ER; cbn [bind] in E2; try discriminate;
        [|apply LEFT; inversion E2; reflexivity].
      inversion E2; subst e'.
      destruct (A3 l1 eq_refl) as [R1 C1]. destruct (B3 l2 eq_refl) as [R2 C2].
      assert (SH : match op with BShl | BShr => nonneg F f2i (val l1) | _ => True end).
      { destruct op; auto; apply (Fs C1 w0 (val l1) w0); rewrite <- A2; apply eval_lit. }
      destruct (raw2_ok op l1 l2 l R1 R2 AR SH ER) as [Q1 Q2].
      split.
      + intros w. rewrite <- SAME. rewrite eval_lit.
        rewrite bin_step by (destruct op; try discriminate; exact Logic.I). rewrite eval_lit; cbn [bind].
        rewrite eval_lit; cbn [bind]. unfold binary. rewrite Q1. reflexivity.
      + intros l' X. inversion X; subst l'. split; [exact Q2|]. simpl. now rewrite C1, C2.
  Qed.

  Lemma all_good : forall e, good e.
  Proof.
    apply (expr_mut F good
      (fun l => fines l -> forall l', process_list l = Ok l' -> forall w, evals l' w = evals l w)
      (fun s => finess s -> forall s', process_suffixes s = Ok s' ->
         forall v w, follow v s' w = follow v s w)).
    - intros l. apply good_other; [reflexivity|]. intros Fi e' E. cbn [Simp_model.process fst] in E. inversion E; subst.
      split; [reflexivity|]. intros l0 X. inversion X; subst. split; [|reflexivity]. destruct l0; simpl in *; auto.
    - intros n. apply good_other; [reflexivity|]. intros Fi e' E. cbn [Simp_model.process fst] in E. inversion E; subst.
      split; [reflexivity|]. discriminate.
    - intros. apply bin_good; auto.
    - intros op a HA. apply good_other; [reflexivity|]. intros Fi e' E. destruct (HA Fi) as [A1 _].
      rewrite p_un in E.
      destruct (fst (process a)) as [a'| | |] eqn:X1; cbn [bind] in E; try discriminate.
      destruct (A1 a' eq_refl) as [A2 A3].
      assert (SAME : forall w, eval (EUn F op a') w = eval (EUn F op a) w).
      { intros w. rewrite ?un_step. rewrite A2. reflexivity. }
      assert (LEFT : e' = EUn F op a' -> (forall w, eval e' w = eval (EUn F op a) w) /\
        (forall l, e' = ELit F l -> ranged l /\ constant F (EUn F op a) = true)).
      { intros ->. split; [exact SAME|]. discriminate. }
      destruct a' as [l1| | | | | |]; try (apply LEFT; inversion E; reflexivity).
      assert (CASE : (op = UMinus \/ op = UBnot) \/ Ok (EUn F op (ELit F l1)) = Ok e').
      { destruct op; auto. }
      destruct CASE as [CASE|CASE]; [|apply LEFT; inversion CASE; reflexivity].
      assert (E2 : (do r <- rawarith1 F num1 f2i op l1;
        match r with Some l' => Ok (ELit F l') | None => Ok (EUn F op (ELit F l1)) end) = Ok e').
      { destruct CASE as [-> | ->]; exact E. }
      clear E. destruct (rawarith1 F num1 f2i op l1) as [[l|]| | |] eqn:ER; cbn [bind] in E2; try discriminate;
        [|apply LEFT; inversion E2; reflexivity].
      inversion E2; subst e'. destruct (A3 l1 eq_refl) as [R1 C1].
      destruct (raw1_ok op l1 l R1 CASE ER) as [Q1 Q2]. split.
      + intros w. rewrite <- SAME, eval_lit. rewrite ?un_step. rewrite eval_lit. cbn [bind].
        unfold unary. rewrite Q1. reflexivity.
      + intros l' X. inversion X; subst l'. split; [exact Q2|]. simpl. exact C1.
    - intros l HL. apply good_other; [reflexivity|]. intros Fi e' E. rewrite p_econcat in E.
      destruct (process_list l) as [l'| | |]; cbn [bind] in E; try discriminate. inversion E; subst.
      split; [|discriminate]. intros w. rewrite !econcat_step. rewrite (HL Fi l' eq_refl). reflexivity.
    - intros a HA s HS. apply good_other; [reflexivity|]. intros [Fa Fs] e' E. destruct (HA Fa) as [A1 _].
      rewrite p_suffixed in E.
      destruct (fst (process a)) as [a'| | |] eqn:X1; cbn [bind] in E; try discriminate.
      destruct (A1 a' eq_refl) as [A2 A3].
      destruct (process_suffixes s) as [s'| | |] eqn:X2; cbn [bind] in E; try discriminate.
      destruct s as [|k s|l s].
      + inversion E; subst. split; [|exact A3]. intros w. rewrite ?suffixed_step. rewrite A2.
        destruct (eval a w) as [[v w1]| | |]; reflexivity.
      + inversion E; subst. split; [|discriminate]. intros w. rewrite ?suffixed_step. rewrite A2.
        destruct (eval a w) as [[v w1]| | |]; cbn [bind]; auto.
      + inversion E; subst. split; [|discriminate]. intros w. rewrite ?suffixed_step. rewrite A2.
        destruct (eval a w) as [[v w1]| | |]; cbn [bind]; auto.
    - intros l HL. apply good_other; [reflexivity|]. intros Fi e' E. rewrite p_table in E.
      destruct (process_list l) as [l'| | |]; cbn [bind] in E; try discriminate. inversion E; subst.
      split; [|discriminate]. intros w. rewrite !table_step. rewrite (HL Fi l' eq_refl). reflexivity.
    - intros _ l' E w. cbn [Simp_model.process_list] in E. inversion E; subst. reflexivity.
    - intros e HE l HL [Fe Fl] l' E w. rewrite pl_cons in E.
      destruct (fst (process e)) as [e'| | |] eqn:X1; cbn [bind] in E; try discriminate.
      destruct (process_list l) as [l1| | |]; cbn [bind] in E; try discriminate. inversion E; subst.
      destruct (HE Fe) as [H1 _]. destruct (H1 e' X1) as [H2 _]. rewrite !evals_step. rewrite H2.
      destruct (eval e w) as [[v w1]| | |]; cbn [bind]; try reflexivity. rewrite (HL Fl l1 eq_refl). reflexivity.
    - intros _ s' E v w. cbn [Simp_model.process_suffixes] in E. inversion E; subst. reflexivity.
    - intros k HK s HS [Fk Fs] s' E v w. rewrite ps_index in E.
      destruct (fst (process k)) as [k'| | |] eqn:X1; cbn [bind] in E; try discriminate.
      destruct (process_suffixes s) as [s1| | |]; cbn [bind] in E; try discriminate. inversion E; subst.
      destruct (HK Fk) as [H1 _]. destruct (H1 k' X1) as [H2 _]. rewrite !index_step. rewrite H2.
      destruct (eval k w) as [[u w1]| | |]; cbn [bind]; try reflexivity.
      destruct (index v u w1) as [[r w2]| | |]; cbn [bind]; try reflexivity. apply (HS Fs s1 eq_refl).
    - intros l HL s HS [Fl Fs] s' E v w. rewrite ps_call in E.
      destruct (process_list l) as [l1| | |]; cbn [bind] in E; try discriminate.
      destruct (process_suffixes s) as [s1| | |]; cbn [bind] in E; try discriminate. inversion E; subst.
      rewrite !call_step. rewrite (HL Fl l1 eq_refl).
      destruct (evals l w) as [[us w1]| | |]; cbn [bind]; try reflexivity.
      destruct (call v us w1) as [[r w2]| | |]; cbn [bind]; try reflexivity. apply (HS Fs s1 eq_refl).
  Qed.
End P.

Lemma simplify_ok : forall F num1 num2 i2f f2i W lit name other2 other1 index call table truth,
  (forall f i, f2i f = Some i -> is_s64 i) ->
  forall e e', fine F num1 num2 i2f f2i W lit name other2 other1 index call table truth e ->
  process_expression F num1 num2 i2f f2i e = Ok e' ->
  forall w, eval F num1 num2 i2f f2i W lit name other2 other1 index call table truth e' w =
            eval F num1 num2 i2f f2i W lit name other2 other1 index call table truth e w.
Proof.
  intros F num1 num2 i2f f2i W lit name other2 other1 index call table truth R e e' Fi E w.
  destruct (all_good F num1 num2 i2f f2i R W lit name other2 other1 index call table truth w e Fi) as [H _].
  destruct (H e' E) as [H1 _]. apply H1.
Qed.

(* the only errors are divisions by a constant zero *)
Definition division {A} (r : outcome A) : Prop := match r with Err x => x = EDivZero \/ x = EModZero | OutOfFuel => False | _ => True end.

Lemma division_bind : forall A B (r : outcome A) (f : A -> outcome B),
  division r -> (forall x, division (f x)) -> division (bind r f).
Proof. intros A B [x|x| |] f H G; simpl in *; auto. Qed.

Lemma division_signed : forall x, division (c_signed x).
Proof. intros x. unfold c_signed. destruct (_ && _); exact Logic.I. Qed.

Lemma division_int2 : forall op a b, division (intarith2 op a b).
Proof.
  intros op a b. destruct op; cbn [intarith2]; try exact Logic.I; try apply division_signed.
  - unfold Simp_model.luaV_mod. destruct (u64 (u64 b + 1) <=? 1); [destruct (b =? 0); simpl; auto|].
    apply division_bind; [apply division_signed|]. intros x. destruct (_ && _); [apply division_signed|exact Logic.I].
  - unfold Simp_model.luaV_idiv. destruct (u64 (u64 b + 1) <=? 1); [destruct (b =? 0); [simpl; auto|apply division_signed]|].
    apply division_bind; [apply division_signed|]. intros x. destruct (_ && _); [apply division_signed|exact Logic.I].
  - unfold Simp_model.luaV_shiftl. repeat destruct (_ <? _); repeat destruct (_ <=? _); try exact Logic.I; apply division_signed.
  - apply division_bind; [apply division_signed|]. intros x.
    unfold Simp_model.luaV_shiftl. repeat destruct (_ <? _); repeat destruct (_ <=? _); try exact Logic.I; apply division_signed.
Qed.

Lemma division_raw2 : forall F num2 i2f f2i op l1 l2, division (rawarith2 F num2 i2f f2i op l1 l2).
Proof.
  intros F num2 i2f f2i op l1 l2.
  assert (D : forall i1 i2, division (do i <- intarith2 op i1 i2; Ok (Some (LInt F i)))).
  { intros. apply division_bind; [apply division_int2|]. intros; exact Logic.I. }
  assert (E : division (match tonumberns F i2f l1, tonumberns F i2f l2 with
            | Some n1, Some n2 => Ok (Some (LFlt F (num2 op n1 n2)))
            | _, _ => Ok None
            end)) by (destruct (tonumberns F i2f l1), (tonumberns F i2f l2); exact Logic.I).
  assert (G : division (match tointegerns F f2i l1, tointegerns F f2i l2 with
        | Some i1, Some i2 => do i <- intarith2 op i1 i2; Ok (Some (LInt F i))
        | _, _ => Ok None
        end)) by (destruct (tointegerns F f2i l1), (tointegerns F f2i l2); auto; exact Logic.I).
  destruct op; unfold rawarith2; auto; destruct l1, l2; auto.
Qed.

Lemma division_int1 : forall op a, division (intarith1 op a).
Proof. intros op a. destruct op; unfold intarith1; try exact Logic.I. apply division_signed. Qed.

Lemma division_raw1 : forall F num1 f2i op l, division (rawarith1 F num1 f2i op l).
Proof.
  intros F num1 f2i op l.
  assert (D : forall i, division (do r <- intarith1 op i; Ok (Some (LInt F r)))).
  { intros. apply division_bind; [apply division_int1|]. intros; exact Logic.I. }
  unfold rawarith1. destruct op; destruct l; auto; try exact Logic.I; destruct (tointegerns _ _ _); auto; exact Logic.I.
Qed.

Lemma division_process : forall F num1 num2 i2f f2i e,
  division (fst (process F num1 num2 i2f f2i e)) /\ division (snd (process F num1 num2 i2f f2i e)).
Proof.
  intros F num1 num2 i2f f2i.
  assert (O : forall e, is_concat F e = false -> division (fst (process F num1 num2 i2f f2i e)) ->
    division (fst (process F num1 num2 i2f f2i e)) /\ division (snd (process F num1 num2 i2f f2i e))).
  { intros e N H. split; [exact H|]. rewrite snd_other by exact N. apply division_bind; [exact H|]. intros; exact Logic.I. }
  apply (expr_mut F (fun e => division (fst (process F num1 num2 i2f f2i e)) /\ division (snd (process F num1 num2 i2f f2i e)))
    (fun l => division (process_list F num1 num2 i2f f2i l)) (fun s => division (process_suffixes F num1 num2 i2f f2i s))).
  - intros l. apply O; [reflexivity|exact Logic.I].
  - intros n. apply O; [reflexivity|exact Logic.I].
  - intros op a [A1 A2] b [B1 B2]. destruct (is_concat F (EBin F op a b)) eqn:EC.
    + assert (op = BConcat) by (destruct op; try discriminate; reflexivity). subst op.
      rewrite p_concat1, p_concat2. split; repeat (apply division_bind; [assumption|intros]); exact Logic.I.
    + apply O; [exact EC|]. rewrite p_bin by (intros ->; discriminate).
      apply division_bind; [exact A1|intros a']. apply division_bind; [exact B1|intros b'].
      destruct a'; try exact Logic.I. destruct b'; try exact Logic.I. destruct (arithmetic op); [|exact Logic.I].
      apply division_bind; [apply division_raw2|]. intros [x|]; exact Logic.I.
  - intros op a [A1 A2]. apply O; [reflexivity|]. rewrite p_un. apply division_bind; [exact A1|intros a'].
    destruct a'; try (destruct op; exact Logic.I).
    destruct op; try exact Logic.I; (apply division_bind; [apply division_raw1|]; intros [x|]; exact Logic.I).
  - intros l H. apply O; [reflexivity|]. rewrite p_econcat. apply division_bind; [exact H|]. intros; exact Logic.I.
  - intros a [A1 A2] s H. apply O; [reflexivity|]. rewrite p_suffixed. apply division_bind; [exact A1|intros a'].
    apply division_bind; [exact H|]. intros s'. destruct s; exact Logic.I.
  - intros l H. apply O; [reflexivity|]. rewrite p_table. apply division_bind; [exact H|]. intros; exact Logic.I.
  - exact Logic.I.
  - intros e [H1 H2] l H. rewrite pl_cons. apply division_bind; [exact H1|intros]. apply division_bind; [exact H|]. intros; exact Logic.I.
  - exact Logic.I.
  - intros k [H1 H2] s H. rewrite ps_index. apply division_bind; [exact H1|intros]. apply division_bind; [exact H|]. intros; exact Logic.I.
  - intros l H1 s H. rewrite ps_call. apply division_bind; [exact H1|intros]. apply division_bind; [exact H|]. intros; exact Logic.I.
Qed.

Lemma only_division : forall F num1 num2 i2f f2i e,
  process_expression F num1 num2 i2f f2i e <> OutOfFuel /\
  (forall x, process_expression F num1 num2 i2f f2i e = Err x -> x = EDivZero \/ x = EModZero).
Proof.
  intros. destruct (division_process F num1 num2 i2f f2i e) as [H _]. unfold process_expression.
  split; [intros E|intros x E]; rewrite E in H; exact H.
Qed.

Lemma shift_wrong : forall F num1 num2 i2f f2i W lit name other2 other1 index call table truth,
  exists e e', process_expression F num1 num2 i2f f2i e = Ok e' /\
  forall w, eval F num1 num2 i2f f2i W lit name other2 other1 index call table truth e w = Ok (VInt F maxint, w) /\
            eval F num1 num2 i2f f2i W lit name other2 other1 index call table truth e' w = Ok (VInt F (-1), w).
Proof.
  intros. exists (EBin F BShr (ELit F (LInt F (-1))) (ELit F (LInt F 1))), (ELit F (LInt F (-1))).
  split; [reflexivity|]. intros w. split; vm_compute; reflexivity.
Qed.

Lemma overflow_wrong : forall F num1 num2 i2f f2i W lit name other2 other1 index call table truth,
  exists e, process_expression F num1 num2 i2f f2i e = UB /\
  forall w, eval F num1 num2 i2f f2i W lit name other2 other1 index call table truth e w = Ok (VInt F minint, w).
Proof.
  intros. exists (EBin F BAdd (ELit F (LInt F maxint)) (ELit F (LInt F 1))).
  split; [reflexivity|]. intros w. vm_compute; reflexivity.
Qed.

Lemma division_wrong : forall F num1 num2 i2f f2i W lit name other2 other1 index call table truth n,
  truth (VOther F (lit n)) = false ->
  exists e, process_expression F num1 num2 i2f f2i e = Err EDivZero /\
  forall w, eval F num1 num2 i2f f2i W lit name other2 other1 index call table truth e w = Ok (VOther F (lit n), w).
Proof.
  intros F num1 num2 i2f f2i W lit name other2 other1 index call table truth n H.
  exists (EBin F BAnd (ELit F (LOther F n)) (EBin F BIdiv (ELit F (LInt F 1)) (ELit F (LInt F 0)))).
  split; [reflexivity|]. intros w. rewrite and_step, eval_lit. cbn [bind val]. rewrite H. reflexivity.
Qed.
