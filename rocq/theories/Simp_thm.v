(* C67: simplification by the compiler keeps the meaning. *)
Require Import ZArith List Bool Lia.
From Verif Require Import Base IntArith_model Simp_model Simp_spec Simp_proofs.
Import ListNotations.
Open Scope Z_scope.

(* whenever the simplification of an expression that shifts no negative constant ends, the result does exactly what the expression does: the same value, the same effects in the same order, the same errors; missing are the shifts of negative constants (C67_shift_refuted) *)
Theorem C67_simplify_partial : forall F num1 num2 i2f f2i W lit name other2 other1 index call table truth,
  (forall f i, f2i f = Some i -> is_s64 i) ->
  forall e e', fine F num1 num2 i2f f2i W lit name other2 other1 index call table truth e ->
  process_expression F num1 num2 i2f f2i e = Ok e' ->
  forall w, eval F num1 num2 i2f f2i W lit name other2 other1 index call table truth e' w =
            eval F num1 num2 i2f f2i W lit name other2 other1 index call table truth e w.
Proof. exact simplify_ok. Qed.
Print Assumptions C67_simplify_partial.

(* the only errors the simplification reports are divisions by zero *)
Theorem C67_errors : forall F num1 num2 i2f f2i e,
  process_expression F num1 num2 i2f f2i e <> OutOfFuel /\
  (forall x, process_expression F num1 num2 i2f f2i e = Err x -> x = EDivZero \/ x = EModZero).
Proof. exact only_division. Qed.
Print Assumptions C67_errors.

(* a constant is shifted as a signed integer (ast_simplify.c:219-233): 0xffffffffffffffff >> 1 becomes -1, the interpreter computes 9223372036854775807 *)
Theorem C67_shift_refuted : forall F num1 num2 i2f f2i W lit name other2 other1 index call table truth,
  exists e e', process_expression F num1 num2 i2f f2i e = Ok e' /\
  forall w, eval F num1 num2 i2f f2i W lit name other2 other1 index call table truth e w = Ok (VInt F maxint, w) /\
            eval F num1 num2 i2f f2i W lit name other2 other1 index call table truth e' w = Ok (VInt F (-1), w).
Proof. exact shift_wrong. Qed.
Print Assumptions C67_shift_refuted.

(* constants are added, subtracted and multiplied as signed integers (ast_simplify.c:235-268): 9223372036854775807 + 1 is undefined behaviour in the compiler, the interpreter wraps around *)
Theorem C67_overflow_refuted : forall F num1 num2 i2f f2i W lit name other2 other1 index call table truth,
  exists e, process_expression F num1 num2 i2f f2i e = UB /\
  forall w, eval F num1 num2 i2f f2i W lit name other2 other1 index call table truth e w = Ok (VInt F minint, w).
Proof. exact overflow_wrong. Qed.
Print Assumptions C67_overflow_refuted.

(* a division by a constant zero stops the compiler even where the expression is never evaluated (false and 1//0) *)
Theorem C67_division_refuted : forall F num1 num2 i2f f2i W lit name other2 other1 index call table truth n,
  truth (VOther F (lit n)) = false ->
  exists e, process_expression F num1 num2 i2f f2i e = Err EDivZero /\
  forall w, eval F num1 num2 i2f f2i W lit name other2 other1 index call table truth e w = Ok (VOther F (lit n), w).
Proof. exact division_wrong. Qed.
Print Assumptions C67_division_refuted.

(* floats are halves here: the number f stands for f / 2 *)
Definition half1 (op : unop) (f : Z) : Z := - f.
Definition half2 (op : binop) (f g : Z) : Z :=
  match op with BAdd => f + g | BSub => f - g | BMul => f * g / 2 | BDiv => 2 * f / g | _ => 0 end.
Definition half_of (i : Z) : Z := 2 * i.
Definition whole (f : Z) : option Z := if Z.even f && (minint <=? f / 2) && (f / 2 <=? maxint) then Some (f / 2) else None.
Definition wlit (l : literal Z) := ELit Z l.
Definition wi (i : Z) := ELit Z (LInt Z i).

(* (-(2 + 3) // 2) .. x .. (x + (7 & (1 << 1)))[3 / 2](~0, "s" + 1) *)
Definition wexpr : expr Z :=
  EBin Z BConcat (ESuffixed Z (EBin Z BIdiv (EUn Z UMinus (ESuffixed Z (EBin Z BAdd (wi 2) (wi 3)) (SNil Z))) (wi 2)) (SNil Z))
    (EBin Z BConcat (EName Z 0)
      (ESuffixed Z (EBin Z BAdd (EName Z 0) (EBin Z BAnd_ (wi 7) (EBin Z BShl (wi 1) (wi 1))))
        (SIndex Z (EBin Z BDiv (wi 3) (wi 2))
        (SCall Z (ECons Z (EUn Z UBnot (wi 0)) (ECons Z (EBin Z BAdd (wlit (LOther Z 4)) (wi 1)) (ENil Z))) (SNil Z))))).

Example C67_witness :
  process_expression Z half1 half2 half_of whole wexpr =
    Ok (EConcat Z (ECons Z (wi (-3)) (ECons Z (EName Z 0) (ECons Z
      (ESuffixed Z (EBin Z BAdd (EName Z 0) (wi 2))
        (SIndex Z (wlit (LFlt Z 3)) (SCall Z (ECons Z (wi (-1))
          (ECons Z (EBin Z BAdd (wlit (LOther Z 4)) (wi 1)) (ENil Z))) (SNil Z))))
      (ENil Z))))) /\
  (forall W lit name other2 other1 index call table truth,
    fine Z half1 half2 half_of whole W lit name other2 other1 index call table truth wexpr) /\
  (forall f i, whole f = Some i -> is_s64 i).
Proof.
  split; [vm_compute; reflexivity|]. split.
  - intros. cbn [wexpr fine fines finess wi wlit]. unfold is_s64, minint, maxint.
    repeat split; try lia. intros _ w v w' E. inversion E; subst. intros i X. inversion X; subst. lia.
  - intros f i. unfold whole. destruct (Z.even f && (minint <=? f / 2) && (f / 2 <=? maxint)) eqn:E; [|discriminate].
    intros X. inversion X; subst. apply andb_prop in E. destruct E as [E E2]. apply andb_prop in E. destruct E as [_ E].
    apply Z.leb_le in E, E2. split; assumption.
Qed.
