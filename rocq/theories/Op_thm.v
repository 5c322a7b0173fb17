(* C32 and C34: constant folding and type-specialised opcodes. *)
Require Import ZArith List Bool Lia.
From Coq Require Import Floats.SpecFloat.
From Verif Require Import Base IntArith_model IntArith_spec Float_model Float_spec Op_model Op_spec Op_proofs.
Import ListNotations.
Open Scope Z_scope.

(* a binary operator on two numerals is replaced by a constant only if the constant is what the operator means, the generic opcode computes it without calling a metamethod or raising an error, and it is neither NaN nor a zero of either sign *)
Theorem C32_fold : forall W fmod fpow tmbin o a b r (w : W), wfnum a -> wfnum b ->
  constfolding fmod fpow o a b = Ok (Some r) ->
  means W fmod fpow tmbin o (Num a) (Num b) w (Ok (Num r, w)) /\
  generic W fmod fpow tmbin o (Num a) (Num b) w = Ok (Num r, w) /\
  r <> NFlt S754_nan /\ r <> NFlt (S754_zero false) /\ r <> NFlt (S754_zero true).
Proof. exact op_fold. Qed.
Print Assumptions C32_fold.

(* the same for unary minus and bitwise not *)
Theorem C32_fold_unary : forall W tmun o a r (w : W), wfnum a -> constfolding1 o a = Ok (Some r) ->
  means1 W tmun o (Num a) w (Ok (Num r, w)) /\
  exec_un W tmun (OP_U o) (Num a) w = Ok (Num r, w) /\
  r <> NFlt S754_nan /\ r <> NFlt (S754_zero false) /\ r <> NFlt (S754_zero true).
Proof. exact op_fold1. Qed.
Print Assumptions C32_fold_unary.

(* the folder always comes to a decision. Missing for the full claim: a right shift by the smallest integer (C32_shr_refuted) *)
Theorem C32_total_partial : forall fmod fpow o a b, wfnum a -> wfnum b -> (o = Shr -> ~ num_is b minint) ->
  exists q, constfolding fmod fpow o a b = Ok q.
Proof. exact op_fold_total. Qed.
Print Assumptions C32_total_partial.

(* 1 >> math.mininteger as constants: the folder negates the count (lobject.c:95), which overflows; the run time would do the same (C02_shr_refuted) *)

(*  *)
Theorem C32_shr_refuted : forall fmod fpow, wfnum (NInt 1) /\ wfnum (NInt minint) /\ constfolding fmod fpow Shr (NInt 1) (NInt minint) = UB.
Proof. exact op_fold_shr_refuted. Qed.
Print Assumptions C32_shr_refuted.

(* whatever sets of types the compiler assumes for the operands, if the operands have these types the opcode it chooses, with the operand order it chooses, gives what the operator means and what the generic opcode gives; for +, - and * of two integers if the result does not overflow (C34_overflow_refuted) *)
Theorem C34_arith_partial : forall W fmod fpow tmbin o t1 t2 b c (w : W), wfval b -> wfval c -> hast t1 b -> hast t2 c -> in_range o b c ->
  let '(oc, sw, t) := codebin o t1 t2 in
  let r := exec_bin W fmod fpow tmbin oc (if sw then c else b) (if sw then b else c) w in
  means W fmod fpow tmbin o b c w r /\ r = generic W fmod fpow tmbin o b c w.
Proof. exact op_arith. Qed.
Print Assumptions C34_arith_partial.

(* and the result has the type the compiler assumes for it, provided the numbers have no metamethods (C34_type_refuted) *)
Theorem C34_type_partial : forall W fmod fpow tmbin tmun o t1 t2 b c (w : W) v w', hast t1 b -> hast t2 c -> in_range o b c -> plain_numbers W tmbin tmun ->
  let '(oc, sw, t) := codebin o t1 t2 in
  exec_bin W fmod fpow tmbin oc (if sw then c else b) (if sw then b else c) w = Ok (v, w') -> hast t v.
Proof. exact op_arith_type. Qed.
Print Assumptions C34_type_partial.

(* ADDII adds with the signed + of C (lvm.c:2444): undefined on overflow, where OP_ADD wraps around *)

(*  *)
Theorem C34_overflow_refuted : forall W fmod fpow tmbin (w : W), hast T_INT (I maxint) /\ hast T_INT (I 1) /\ wfval (I maxint) /\ wfval (I 1) /\
  codebin Add T_INT T_INT = (ADDII, false, T_INT) /\ exec_bin W fmod fpow tmbin ADDII (I maxint) (I 1) w = UB /\
  generic W fmod fpow tmbin Add (I maxint) (I 1) w = Ok (I minint, w).
Proof. exact op_overflow_refuted. Qed.
Print Assumptions C34_overflow_refuted.

(* with a metatable for numbers, 0.5 & 1 is whatever the metamethod returns, but the compiler takes it for an integer (lcode.c:1416-1419) *)

(*  *)
Theorem C34_type_refuted : forall fmod fpow, hast T_FLT (F half) /\ hast T_INT (I 1) /\ wfval (F half) /\
  codebin Band T_FLT T_INT = (OP_G Band, false, T_INT) /\
  exec_bin unit fmod fpow number_meta (OP_G Band) (F half) (I 1) tt = Ok (Str [120], tt) /\ ~ hast T_INT (Str [120]).
Proof. exact op_type_refuted. Qed.
Print Assumptions C34_type_refuted.

(* unary minus and bitwise not *)
Theorem C34_unary : forall W tmun o t b (w : W), wfval b -> hast t b ->
  means1 W tmun o b w (exec_un W tmun (fst (codeun o t)) b w) /\ exec_un W tmun (fst (codeun o t)) b w = exec_un W tmun (OP_U o) b w.
Proof. exact op_unary. Qed.
Print Assumptions C34_unary.

(* and the types of their results, if the numbers have no metamethods *)
Theorem C34_unary_type_partial : forall W tmbin tmun o t b (w : W) v w', hast t b -> plain_numbers W tmbin tmun ->
  exec_un W tmun (fst (codeun o t)) b w = Ok (v, w') -> hast (snd (codeun o t)) v.
Proof. exact op_unary_type. Qed.
Print Assumptions C34_unary_type_partial.

(* comparisons *)
Theorem C34_compare : forall W tmcmp o t1 t2 b c (w : W), wfval b -> wfval c -> hast t1 b -> hast t2 c ->
  meansc W tmcmp o b c w (exec_cmp W tmcmp (comp_op o t1 t2) b c w) /\
  exec_cmp W tmcmp (comp_op o t1 t2) b c w = exec_cmp W tmcmp (OP_C o) b c w.
Proof. exact op_compare. Qed.
Print Assumptions C34_compare.

(* indexing: the opcode chosen for t[k] gives what OP_GETTABLE gives, and the result has the type the compiler assumes *)
Theorem C34_get : forall W tabget iget fget otherget t k sh vt vk (w : W), hast t vt -> hast k vk ->
  exec_get W tabget iget fget otherget (fst (codeget t k sh)) vt vk w = exec_get W tabget iget fget otherget OP_GETTABLE vt vk w /\
  forall v w', exec_get W tabget iget fget otherget (fst (codeget t k sh)) vt vk w = Ok (v, w') -> hast (snd (codeget t k sh)) v.
Proof. exact op_get. Qed.
Print Assumptions C34_get.

(* assignment t[k] = v, unless t is an integer array and v a float that is no integer (C34_set_refuted) *)
Theorem C34_set_partial : forall W tabset iset fset otherset t k tv sh vt vk v (w : W), hast t vt -> hast k vk -> hast tv v -> wfval v ->
  (t = T_IARR -> forall f, v = F f -> exists z, int_val v z) ->
  exec_set W tabset iset fset otherset (codeset t k tv sh) vt vk v w = exec_set W tabset iset fset otherset OP_SETTABLE vt vk v w.
Proof. exact op_set. Qed.
Print Assumptions C34_set_partial.

(* OP_RAVI_IARRAY_SET casts a float (lvm.c:2315): 0.5 is stored as 0 where OP_SETTABLE raises an error, and an infinity is undefined behaviour *)

(*  *)
Theorem C34_set_refuted : forall W tabset iset fset otherset (w w' : W), iset 0%nat 1 0 w = Ok w' ->
  codeset T_IARR T_INT T_ANY false = OP_IARRAY_SET /\ hast T_IARR (IArr 0) /\ hast T_INT (I 1) /\ hast T_ANY (F half) /\
  exec_set W tabset iset fset otherset OP_IARRAY_SET (IArr 0) (I 1) (F half) w = Ok w' /\
  exec_set W tabset iset fset otherset OP_SETTABLE (IArr 0) (I 1) (F half) w = Err EType /\
  exec_set W tabset iset fset otherset OP_IARRAY_SET (IArr 0) (I 1) (F (S754_infinity false)) w = UB.
Proof. exact op_set_refuted. Qed.
Print Assumptions C34_set_refuted.

Definition two : flt := cast_num 2.
Definition zmod (x y : flt) : flt := fzero.
Definition no_meta (o : bop) (a b : val) (w : nat) : outcome (val * nat) := Err EType.
Example C32_witness :
  constfolding zmod zmod Add (NInt maxint) (NInt 1) = Ok (Some (NInt minint)) /\
  constfolding zmod zmod IDiv (NInt (-7)) (NInt 2) = Ok (Some (NInt (-4))) /\
  constfolding zmod zmod Div (NInt 1) (NInt 2) = Ok (Some (NFlt half)) /\
  constfolding zmod zmod Div (NInt 1) (NInt 0) = Ok None /\ constfolding zmod zmod IDiv (NInt 1) (NInt 0) = Ok None /\
  constfolding zmod zmod Mul (NInt 0) (NFlt (fneg half)) = Ok None /\ constfolding zmod zmod Band (NFlt two) (NInt 3) = Ok (Some (NInt 2)) /\
  constfolding zmod zmod Band (NFlt half) (NInt 3) = Ok None /\ constfolding1 Unm (NInt 0) = Ok (Some (NInt 0)) /\
  constfolding1 Unm (NFlt fzero) = Ok None /\ constfolding1 Bnot (NInt 5) = Ok (Some (NInt (-6))).
Proof. vm_compute; repeat split; reflexivity. Qed.
Example C34_witness :
  codebin Add T_INT T_FLT = (ADDFI, true, T_FLT) /\ hast T_INT (I 3) /\ hast T_FLT (F half) /\ in_range Add (I 3) (F half) /\
  exec_bin nat zmod zmod no_meta ADDFI (F half) (I 3) 0%nat = Ok (F (fadd half (cast_num 3)), 0%nat) /\
  codebin Sub T_INT T_FLT = (SUBIF, false, T_FLT) /\ codebin Mod T_INT T_INT = (OP_G Mod, false, T_INT) /\
  codebin Sub T_NUM T_INT = (OP_G Sub, false, T_NUM) /\ codebin Add T_STR T_INT = (OP_G Add, false, T_ANY) /\
  exec_bin nat zmod zmod no_meta MULII (I 3) (I (-5)) 0%nat = Ok (I (-15), 0%nat) /\ in_range Mul (I 3) (I (-5)) /\
  comp_op Lt T_INT T_INT = LT_II /\ exec_cmp nat (fun _ _ _ _ => Err EType) LT_II (I (-1)) (I 0) 0%nat = Ok (true, 0%nat) /\
  exec_bin nat zmod zmod no_meta ADDII (F half) (I 1) 0%nat = UB.
Proof. repeat split; unfold is_s64, minint, maxint; lia. Qed.
