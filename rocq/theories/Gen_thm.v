(* C33, C35 and C58: the code generator for expressions, conditions and assignments. *)
Require Import ZArith List Bool Lia.
From Verif Require Import Base Float_model Op_model Op_spec Gen_model Gen_spec Gen_proofs Gen_refute.
Import ListNotations.
Open Scope nat_scope.

(* the code generated for a tame expression computes its value: constant folding, specialised and merged instructions, jumps and register allocation do not show. The value comes to the next free register, which is then in use; the registers below it, that is the variables, keep their values; errors are raised when the expression raises them; the type the compiler assumes for the value is right. Missing for the full claim: expressions that are not tame (C58_leaked_refuted, C58_assertion_refuted, C33_assertion_refuted), table constructors, closures, calls with several results *)
Theorem C58_value_partial : forall W (E : env W) n lt ut x fs fs1 e fs2 e2 P s, plain W E ut -> types_ok n lt ut -> tame n lt ut x = true -> starts n lt ut fs ->
  gen (fmod E) (fpow E) fs x = Ok (fs1, e) -> exp2nextreg fs1 e = (fs2, e2) -> goes_on fs2 P -> (forall r, r < n -> hast (lt r) (reg s r)) ->
  e2 = mk (VNonreloc (freereg fs)) [] [] (styp n lt ut x) /\ freereg fs2 = S (freereg fs) /\
  (forall v w, eval W E n lt ut x (reg s) (world s) = Ok (v, w) -> hast (styp n lt ut x) v) /\
  computes W E P (pc fs, s) (eval W E n lt ut x (reg s) (world s)) (fun v w c =>
    exists s', c = (pc fs2, s') /\ reg s' (freereg fs) = v /\ world s' = w /\ forall r, r < freereg fs -> reg s' r = reg s r).
Proof. exact expression_value. Qed.
Print Assumptions C58_value_partial.

(* local x = @integer(f()) and 7: luaK_goiftrue omits the test since an integer is true, but does not free the register of the call (lcode.c:1144-1172); x is the register the call used and holds what f returned, not 7 *)
Theorem C58_leaked_refuted : exists n lt x fs fs1 e fs2 e2 P s s' v w, types_ok n lt ut0 /\ starts n lt ut0 fs /\
  gen (fmod E0) (fpow E0) fs x = Ok (fs1, e) /\ exp2nextreg fs1 e = (fs2, e2) /\ goes_on fs2 P /\ (forall r, r < n -> hast (lt r) (reg s r)) /\
  eval nat E0 n lt ut0 x (reg s) (world s) = Ok (v, w) /\ runs nat E0 P (pc fs, s) (pc fs2, s') /\ reg s' (freereg fs) <> v.
Proof. exact value_leaked. Qed.
Print Assumptions C58_leaked_refuted.

(* @integer(a and b): code_type_assertion (lcode.c:1523-1613) emits the conversion into the code of b only; nil comes through as an "integer" *)
Theorem C58_assertion_refuted : exists n lt x fs fs1 e fs2 e2 P s s', types_ok n lt ut0 /\ starts n lt ut0 fs /\
  gen (fmod E0) (fpow E0) fs (EUn (UAssert CInt) x) = Ok (fs1, e) /\ exp2nextreg fs1 e = (fs2, e2) /\ goes_on fs2 P /\ (forall r, r < n -> hast (lt r) (reg s r)) /\
  runs nat E0 P (pc fs, s) (pc fs2, s') /\ e2 = mk (VNonreloc (freereg fs)) [] [] T_INT /\ ~ hast T_INT (reg s' (freereg fs)).
Proof. exact assertion_skipped. Qed.
Print Assumptions C58_assertion_refuted.

(* the code of a condition goes on behind it if the value of the expression is true and to the destination of its jumps if it is false or nil, although tests are omitted where the type decides; variables keep their values. Missing for the full claim: C35_omitted_refuted, C35_function_refuted and the expressions that are not tame *)
Theorem C35_condition_partial : forall W (E : env W) n lt ut x fs fs1 e fs2 l d P s, plain W E ut -> types_ok n lt ut -> tame n lt ut x = true -> tested n lt ut x T_FALSISH = true -> starts n lt ut fs ->
  gen (fmod E) (fpow E) fs x = Ok (fs1, e) -> cond fs1 e = (fs2, l) -> branches fs2 l d P -> (forall r, r < n -> hast (lt r) (reg s r)) ->
  freereg fs2 = freereg fs /\
  computes W E P (pc fs, s) (eval W E n lt ut x (reg s) (world s)) (fun v w c =>
    exists s', c = (if truthy v then pc fs2 else d, s') /\ world s' = w /\ forall r, r < freereg fs -> reg s' r = reg s r).
Proof. exact condition_jumps. Qed.
Print Assumptions C35_condition_partial.

(* if i + 1 then, with i: integer: the test is omitted, the addition is not, and its target register is never set (it is 0): the first variable is overwritten *)
Theorem C35_omitted_refuted : exists n lt x fs fs1 e fs2 l P s s', types_ok n lt ut0 /\ tame n lt ut0 x = true /\ starts n lt ut0 fs /\
  gen (fmod E0) (fpow E0) fs x = Ok (fs1, e) /\ cond fs1 e = (fs2, l) /\ goes_on fs2 P /\ (forall r, r < n -> hast (lt r) (reg s r)) /\
  runs nat E0 P (pc fs, s) (pc fs2, s') /\ exists r, r < n /\ reg s' r <> reg s r.
Proof. exact cond_omitted. Qed.
Print Assumptions C35_omitted_refuted.

(* local function f() end; f = nil; if f then: f has the type RAVI_TM_FUNCTION, without nil; the assignment is not checked (lcode.c:851-985) and the test is omitted *)
Theorem C35_function_refuted : exists n lt x fs fs1 e fs2 fs3 e3 fs4 l P s s', types_ok n lt ut0 /\ tame n lt ut0 x = true /\ starts n lt ut0 fs /\
  gen (fmod E0) (fpow E0) fs x = Ok (fs1, e) /\ storelocal fs1 0 e = Ok fs2 /\ gen (fmod E0) (fpow E0) fs2 (ELocal 0) = Ok (fs3, e3) /\ cond fs3 e3 = (fs4, l) /\
  goes_on fs4 P /\ (forall r, r < n -> hast (lt r) (reg s r)) /\ runs nat E0 P (pc fs, s) (pc fs4, s') /\ l = [] /\ truthy (reg s' 0) = false.
Proof. exact function_true. Qed.
Print Assumptions C35_function_refuted.

(* an assignment of an expression to a local variable of a declared type stores the value converted to that type or raises an error, and afterwards all local variables hold values of their types; the other variables are unchanged. The value may come by jumps (and, or, comparisons) if the variable is not typed. Missing for the full claim: values that come by jumps into a typed variable (C33_jump_refuted), an untyped variable on the right hand side (C33_in_place_refuted), type assertions to variables (C33_assertion_refuted), declarations of several variables *)
Theorem C33_assignment_partial : forall W (E : env W) n lt ut x fs fs1 e r fs2 P s, plain W E ut -> types_ok n lt ut -> tame n lt ut x = true -> starts n lt ut fs -> r < n -> declared (lt r) ->
  (lt r = T_ANY \/ (simple x = true /\ shape_of x <> Jump /\ forall q, x = ELocal q -> lt q <> T_ANY)) ->
  gen (fmod E) (fpow E) fs x = Ok (fs1, e) -> storelocal fs1 r e = Ok fs2 -> goes_on fs2 P -> (forall q, q < n -> hast (lt q) (reg s q)) ->
  freereg fs2 = freereg fs /\
  computes W E P (pc fs, s) (bind (eval W E n lt ut x (reg s) (world s)) (fun '(v, w) => bind (coerce (lt r) v) (fun v => Ok (v, w)))) (fun v w c =>
    exists s', c = (pc fs2, s') /\ reg s' r = v /\ world s' = w /\ (forall q, q < freereg fs -> q <> r -> reg s' q = reg s q) /\ (forall q, q < n -> hast (lt q) (reg s' q))).
Proof. exact assignment_typed. Qed.
Print Assumptions C33_assignment_partial.

(* i = a and b, with i: integer and a = nil: nil is stored by the jump (OP_TESTSET), without a check *)
Theorem C33_jump_refuted : exists n lt x r fs fs1 e fs2 P s s', types_ok n lt ut0 /\ tame n lt ut0 x = true /\ starts n lt ut0 fs /\ r < n /\ declared (lt r) /\
  gen (fmod E0) (fpow E0) fs x = Ok (fs1, e) /\ storelocal fs1 r e = Ok fs2 /\ goes_on fs2 P /\ (forall r, r < n -> hast (lt r) (reg s r)) /\
  runs nat E0 P (pc fs, s) (pc fs2, s') /\ ~ hast (lt r) (reg s' r).
Proof. exact store_unchecked. Qed.
Print Assumptions C33_jump_refuted.

(* i = x, with i: integer and x = 2.0: check_valid_store converts the variable x itself to an integer (lcode.c:880-890) *)
Theorem C33_in_place_refuted : exists n lt x r fs fs1 e fs2 P s s', types_ok n lt ut0 /\ tame n lt ut0 x = true /\ starts n lt ut0 fs /\ r < n /\ declared (lt r) /\
  gen (fmod E0) (fpow E0) fs x = Ok (fs1, e) /\ storelocal fs1 r e = Ok fs2 /\ goes_on fs2 P /\ (forall r, r < n -> hast (lt r) (reg s r)) /\
  runs nat E0 P (pc fs, s) (pc fs2, s') /\ exists q, q < n /\ q <> r /\ reg s' q <> reg s q.
Proof. exact store_in_place. Qed.
Print Assumptions C33_in_place_refuted.

(* local f = @number i, with i: integer: i becomes a float *)
Theorem C33_assertion_refuted : exists n lt x fs fs1 e fs2 e2 P s s', types_ok n lt ut0 /\ starts n lt ut0 fs /\
  gen (fmod E0) (fpow E0) fs x = Ok (fs1, e) /\ exp2nextreg fs1 e = (fs2, e2) /\ goes_on fs2 P /\ (forall r, r < n -> hast (lt r) (reg s r)) /\
  runs nat E0 P (pc fs, s) (pc fs2, s') /\ exists r, r < n /\ ~ hast (lt r) (reg s' r).
Proof. exact assertion_in_place. Qed.
Print Assumptions C33_assertion_refuted.

(* s = (x), with s: string and x = 1: OP_MOVE stores the number, then OP_RAVI_TOSTRING raises the error (lcode.c:680-692); a closure that shares s sees the number *)
Theorem C33_early_refuted : exists n lt x r fs fs1 e fs2 P s p s' er, types_ok n lt ut0 /\ tame n lt ut0 x = true /\ starts n lt ut0 fs /\ r < n /\ declared (lt r) /\
  gen (fmod E0) (fpow E0) fs x = Ok (fs1, e) /\ storelocal fs1 r e = Ok fs2 /\ goes_on fs2 P /\ (forall r, r < n -> hast (lt r) (reg s r)) /\
  runs nat E0 P (pc fs, s) (p, s') /\ step nat E0 P (p, s') = Err er /\ ~ hast (lt r) (reg s' r).
Proof. exact store_too_early. Qed.
Print Assumptions C33_early_refuted.

(* not (a and b) or i + 2 < f(i), with i: integer and a table in register 0 *)
Definition ex1 : expr := EBin BOr (EUn UNot (EBin BAnd (ELocal 0) (ELocal 1))) (EBin (BCmp CLt) (EBin (BArith Add) (ELocal 2) (EInt 2)) (ECall (ELocal 0) (ACons (ELocal 2) ANil))).
Definition lt1 : list tmap := [T_ANY; T_ANY; T_INT].
Definition code1 : list instr :=
  [Test 0 false; Jmp (Some 11); Test 1 false; Jmp (Some 11); Val (Some 3) (OBin ADDII (R 2) (K 0)); Val (Some 4) (OMove 0); Val (Some 5) (OMove 2); Call 4 1;
   Cmp (OP_C Lt) true (R 3) (R 4); Jmp (Some 11); LoadBoolSkip 3 false; Val (Some 3) (OLoadBool true)].
Example C58_witness :
  tame 3 (lt0 lt1) ut0 ex1 = true /\ types_ok 3 (lt0 lt1) ut0 /\ starts 3 (lt0 lt1) ut0 (fs0 lt1) /\ plain nat E0 ut0 /\
  (exists fs1 e fs2 e2, g0 (fs0 lt1) ex1 = Ok (fs1, e) /\ exp2nextreg fs1 e = (fs2, e2) /\ goes_on fs2 (mkprog (code1 ++ [Jmp (Some 0)]) [I 2; Nil]) /\ code fs2 = code1) /\
  eval nat E0 3 (lt0 lt1) ut0 ex1 (reg (st0 [Tab 0; I 1; I 4])) 0 = Ok (Bool false, 1) /\
  (exists s', go 8 (mkprog code1 [I 2]) (0, st0 [Tab 0; I 1; I 4]) = Ok (12, s') /\ reg s' 3 = Bool false /\ world s' = 1) /\
  (exists s', go 3 (mkprog code1 [I 2]) (0, st0 [Nil; I 1; I 4]) = Ok (12, s') /\ reg s' 3 = Bool true /\ world s' = 0).
Proof.
  split; [reflexivity|]. split; [apply (types0 lt1); reflexivity|]. split; [exact (starts0 lt1)|]. split; [exact plain0|]. split.
  - do 4 eexists. split; [vm_compute; reflexivity|]. split; [vm_compute; reflexivity|]. split; [|vm_compute; reflexivity]. split; [exists [Jmp (Some 0)]|exists [Nil]]; reflexivity.
  - split; [reflexivity|]. split; eexists; (split; [vm_compute; reflexivity|]); split; reflexivity.
Qed.
(* if not (a and b) or i + 2 < f(i) then, with the else part at 20 *)
Example C35_witness :
  tame 3 (lt0 lt1) ut0 ex1 = true /\ tested 3 (lt0 lt1) ut0 ex1 T_FALSISH = true /\ starts 3 (lt0 lt1) ut0 (fs0 lt1) /\
  (exists fs1 e fs2 l P, g0 (fs0 lt1) ex1 = Ok (fs1, e) /\ cond fs1 e = (fs2, l) /\ branches fs2 l 20 P /\ pc fs2 = 10 /\
    (exists s', go 8 P (0, st0 [Tab 0; I 1; I 4]) = Ok (20, s') /\ world s' = 1) /\ (exists s', go 2 P (0, st0 [Nil; I 1; I 4]) = Ok (10, s') /\ world s' = 0)) /\
  (* while i do, with i: integer: no code at all *)
  tested 3 (lt0 lt1) ut0 (ELocal 2) T_FALSISH = true /\
  (exists fs1 e fs2, g0 (fs0 lt1) (ELocal 2) = Ok (fs1, e) /\ cond fs1 e = (fs2, []) /\ code fs2 = []).
Proof.
  split; [reflexivity|]. split; [reflexivity|]. split; [exact (starts0 lt1)|]. split.
  - do 4 eexists. eexists (mkprog _ _). split; [vm_compute; reflexivity|]. split; [vm_compute; reflexivity|]. split; [split; exists []; rewrite app_nil_r; vm_compute; reflexivity|].
    split; [vm_compute; reflexivity|]. split; eexists; (split; [vm_compute; reflexivity|]); reflexivity.
  - split; [reflexivity|]. do 3 eexists. split; [vm_compute; reflexivity|]. split; [vm_compute; reflexivity|vm_compute; reflexivity].
Qed.
(* i = f(2.0): the result is checked by OP_RAVI_MOVEI; i = 2.0 is rejected, i = f(x).y is converted *)
Example C33_witness :
  declared (lt0 lt1 2) /\ simple (ECall (ELocal 0) (ACons (EFlt (cast_num 2)) ANil)) = true /\
  (exists fs1 e fs2 s', g0 (fs0 lt1) (ECall (ELocal 0) (ACons (EFlt (cast_num 2)) ANil)) = Ok (fs1, e) /\ storelocal fs1 2 e = Ok fs2 /\
    code fs2 = [Val (Some 3) (OMove 0); Val (Some 4) (OLoadK 0); Call 3 1; Val (Some 2) (OMoveT CInt 3)] /\
    go 4 (mkprog (code fs2) (ks fs2)) (0, st0 [Fun 0; Nil; I 9]) = Ok (4, s') /\ reg s' 2 = I 2) /\
  (exists fs1 e, g0 (fs0 lt1) (EFlt (cast_num 2)) = Ok (fs1, e) /\ storelocal fs1 2 e = Err EType) /\
  (exists fs1 e fs2, g0 (fs0 lt1) (EIndex (ELocal 0) (EStr [121%Z])) = Ok (fs1, e) /\ storelocal fs1 2 e = Ok fs2 /\
    code fs2 = [Val (Some 3) (OGet OP_GETFIELD 0 (K 0)); Conv 3 CInt; Val (Some 2) (OMoveT CInt 3)]) /\
  (* a = a and b or i: jumps that carry the value to the variable *)
  (exists fs1 e fs2 s', g0 (fs0 lt1) (EBin BOr (EBin BAnd (ELocal 0) (ELocal 1)) (ELocal 2)) = Ok (fs1, e) /\ storelocal fs1 0 e = Ok fs2 /\
    code fs2 = [Test 0 false; Jmp (Some 4); TestSet (Some 0) 1 true; Jmp (Some 5); Val (Some 0) (OMove 2)] /\
    go 3 (mkprog (code fs2) (ks fs2)) (0, st0 [I 7; Nil; I 9]) = Ok (5, s') /\ reg s' 0 = I 9).
Proof.
  split; [right; discriminate|]. split; [reflexivity|]. split; [|split; [|split]].
  - do 4 eexists. split; [vm_compute; reflexivity|]. split; [vm_compute; reflexivity|]. split; [vm_compute; reflexivity|]. split; [vm_compute; reflexivity|vm_compute; reflexivity].
  - do 2 eexists. split; [vm_compute; reflexivity|vm_compute; reflexivity].
  - do 3 eexists. split; [vm_compute; reflexivity|]. split; [vm_compute; reflexivity|vm_compute; reflexivity].
  - do 4 eexists. split; [vm_compute; reflexivity|]. split; [vm_compute; reflexivity|]. split; [vm_compute; reflexivity|]. split; [vm_compute; reflexivity|vm_compute; reflexivity].
Qed.
