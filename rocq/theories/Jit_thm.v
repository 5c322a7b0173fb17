(* C63: compiled code does what the interpreter does. *)
Require Import ZArith List Bool Lia.
From Verif Require Import Base IntArith_model Float_model Op_model Jit_model Jit_spec Jit_facts Jit_proofs.
Import ListNotations.
Open Scope Z_scope.

(* the C text of a function, executed piece by piece, goes through the states of the interpreter: whatever the interpreter returns or raises after n instructions, the compiled code returns or raises, with the same registers and the same world; for both sets of options, any library and any metamethods.  Not covered: calls, upvalues, closures, varargs, table constructors and the instructions of loops (below); the exceptions in agree are necessary, see the refutations *)
Theorem C63_run_partial : forall (W : Type) (L : lib W) kst sizep op code n m,
  const_ok kst -> lens L -> well_formed code ->
  along kst (l_alen L) (istep L kst sizep code) op code n 0 m -> irun L kst sizep n code 0 m <> UB ->
  crun L kst n (emit kst sizep op code) (emit kst sizep op code) (cinit m) = irun L kst sizep n code 0 m.
Proof. exact jit_run. Qed.
Print Assumptions C63_run_partial.

(* a numeric loop: the compiled loop, which keeps index, limit and step in C variables, gives its body the same values and ends at the same time as the interpreter, which keeps them in registers; loops of floats, loops of integers whose bounds plus or minus the step are integers, and the error for other bounds *)
Theorem C63_for_partial : forall (W : Type) (L : lib W) kst sizep op a n body c,
  blind a body -> bounds_ok a (mem c) -> wide a (mem c) ->
  same a (ifor L kst sizep (FORPREP a 0) (FORLOOP a (-1)) n body (mem c))
         (cfor L kst sizep op (FORPREP a 0) (FORLOOP a (-1)) n body c).
Proof. exact jit_for. Qed.
Print Assumptions C63_for_partial.

(* the same for the loops of integers with a constant step *)
Theorem C63_ifor_partial : forall (W : Type) (L : lib W) kst sizep op a one n body c i l s,
  blind a body -> fst (mem c) a = I i -> fst (mem c) (a + 1)%nat = I l -> (one = false -> fst (mem c) (a + 2)%nat = I s) ->
  same a (ifor L kst sizep (IFORPREP one a 0) (IFORLOOP one a (-1)) n body (mem c))
         (cfor L kst sizep op (IFORPREP one a 0) (IFORLOOP one a (-1)) n body c).
Proof. exact jit_ifor. Qed.
Print Assumptions C63_ifor_partial.

(* the statement without exceptions is false: a float with an integer value is accepted by the interpreter for an integer variable, compiled code raises an error *)
Theorem C63_movei_refuted : exists code m, well_formed code /\ ians code 2 m = Ok (I 2, []) /\ forall op, cans op code 2 m = Err EType.
Proof. exact movei_differs. Qed.
Print Assumptions C63_movei_refuted.

(* for i = 1, 3.5: the interpreter counts integers, compiled code floats *)
Theorem C63_for_limit_refuted : exists code m, well_formed code /\ ians code 3 m = Ok (I 1, []) /\ forall op, cans op code 3 m = Ok (F (cast_num 1), []).
Proof. exact for_limit_differs. Qed.
Print Assumptions C63_for_limit_refuted.

(* a loop of integers that reaches the largest integer: the interpreter wraps around, the addition of compiled code overflows *)
Theorem C63_for_overflow_refuted : exists code m n, well_formed code /\ ians code n m = Ok (I minint, []) /\ forall op, cans op code n m = UB.
Proof. exact for_overflow_differs. Qed.
Print Assumptions C63_for_overflow_refuted.

(* ravi.compile without options: maxint + 1 wraps in the interpreter and overflows in compiled code *)
Theorem C63_inline_refuted : exists code m, well_formed code /\ ians code 2 m = Ok (I minint, []) /\
  cans auto_options code 2 m = Ok (I minint, []) /\ cans manual_options code 2 m = UB.
Proof. exact inline_differs. Qed.
Print Assumptions C63_inline_refuted.

(* ravi.compile without options: an index outside an array raises an error in the interpreter and reads foreign memory in compiled code *)
Theorem C63_omit_refuted : exists code m, well_formed code /\ ians code 2 m = Err EBounds /\
  cans auto_options code 2 m = Err EBounds /\ cans manual_options code 2 m = UB.
Proof. exact omit_differs. Qed.
Print Assumptions C63_omit_refuted.

(* an index beyond 32 bits: the interpreter cuts it and reads an element, compiled code raises an error *)
Theorem C63_index_refuted : exists code m, well_formed code /\ ians code 2 m = Ok (I 11, [10; 11; 12]) /\ cans auto_options code 2 m = Err EBounds.
Proof. exact index_differs. Qed.
Print Assumptions C63_index_refuted.

(* a float stored into an integer array: the interpreter cuts it, compiled code raises an error *)
Theorem C63_iset_refuted : exists code m, well_formed code /\ ians code 2 m = Ok (IArr 0, [10; 7; 12]) /\ forall op, cans op code 2 m = Err EType.
Proof. exact iset_differs. Qed.
Print Assumptions C63_iset_refuted.

(* i = 0; while i < 3 do i = i + 1 end; return i *)
Definition count : list instr :=
  [LOADIZ 0; CMP LT_II 1 (RR 0) (RK 0); JMP 0 1; JMP 0 2; BIN ADDII 0 (RR 0) (RK 1); JMP 0 (-5); RETURN 0 2].
Definition two_consts (n : nat) : val := match n with O => I 3 | S O => I 1 | _ => Nil end.
Example C63_run_witness :
  well_formed count /\ const_ok two_consts /\ lens lib1 /\
  along two_consts (l_alen lib1) (istep lib1 two_consts false count) auto_options count 20 0 (regs [] []) /\
  answer (irun lib1 two_consts false 20 count 0 (regs [] [])) = Ok (I 3, []) /\
  answer (crun lib1 two_consts 20 (emit two_consts false auto_options count) (emit two_consts false auto_options count) (cinit (regs [] []))) = Ok (I 3, []) /\
  map fst (emit two_consts false auto_options count) = [None; Some 1%nat; None; Some 4%nat; None; Some 6%nat].
Proof.
  split; [wf|]. split; [intros [|[|n]]; cbn; try discriminate; exact Logic.I|]. split; [exact lib1_lens|].
  split; [|repeat split; vm_compute; reflexivity].
  assert (A : forall n pc m, along two_consts (l_alen lib1) (istep lib1 two_consts false count) auto_options count n pc m).
  { induction n as [|n IH]; intros pc m; [exact Logic.I|]. cbn [along]. split.
    - intros i E. do 7 (destruct pc as [|pc]; [cbn in E; injection E as <-; exact Logic.I|]). destruct pc; discriminate E.
    - destruct (istep lib1 two_consts false count pc m) as [[p m1|x y m1]|e| |]; try exact Logic.I. apply IH. }
  apply A.
Qed.
(* the body: s = s + i, where i is register 3 and s register 4 *)
Definition add_up (m : state (list Z)) : outcome (state (list Z)) :=
  match fst m 3%nat, fst m 4%nat with Num (NInt x), Num (NInt y) => Ok (upr m 4 (I (x + y))) | _, _ => Err EType end.
Definition sum_of (x : outcome (state (list Z))) : outcome val := bind x (fun m => Ok (fst m 4%nat)).
Example C63_for_witness :
  blind 0 add_up /\
  (let m := regs [I 10; I 1; I (-4); Nil; I 0] [] in
   bounds_ok 0 m /\ wide 0 m /\
   sum_of (ifor lib1 noconst false (FORPREP 0 0) (FORLOOP 0 (-1)) 9 add_up m) = Ok (I 18) /\
   sum_of (cfor lib1 noconst false auto_options (FORPREP 0 0) (FORLOOP 0 (-1)) 9 add_up (cinit m)) = Ok (I 18)) /\
  (let m := regs [F (cast_num 1); I 3; I 1; Nil; I 0] [] in
   bounds_ok 0 m /\ ifor lib1 noconst false (FORPREP 0 0) (FORLOOP 0 (-1)) 9 add_up m = Err EType) /\
  (let m := regs [I 1; I 4; Nil; Nil; I 0] [] in
   sum_of (ifor lib1 noconst false (IFORPREP true 0 0) (IFORLOOP true 0 (-1)) 9 add_up m) = Ok (I 10) /\
   sum_of (cfor lib1 noconst false auto_options (IFORPREP true 0 0) (IFORLOOP true 0 (-1)) 9 add_up (cinit m)) = Ok (I 10)).
Proof.
  split.
  - split.
    + intros m m' [A B]. unfold add_up. rewrite <- (B 3%nat), <- (B 4%nat) by discriminate.
      destruct (fst m 3%nat) as [| |[x|x]| | | | | | |]; try reflexivity. destruct (fst m 4%nat) as [| |[y|y]| | | | | | |]; try reflexivity.
      cbn [same]. apply off_upr. split; assumption.
    + intros m m' E k K. unfold add_up in E. destruct (fst m 3%nat) as [| |[x|x]| | | | | | |]; try discriminate E. destruct (fst m 4%nat) as [| |[y|y]| | | | | | |]; try discriminate E.
      injection E as <-. apply upr_ne. destruct k as [|[|[|k]]]; try discriminate; exfalso; apply (Nat.nlt_0_r k); do 3 apply Nat.succ_lt_mono; exact K.
  - split; [split; [|split; [|split; vm_compute; reflexivity]]|split; [split; [|vm_compute; reflexivity]|split; vm_compute; reflexivity]].
    + intros i s E1 E2. cbn in E1, E2. injection E1 as <-. injection E2 as <-. cbn. unfold in64, minint, maxint. lia.
    + intros k K. unfold in64, minint, maxint. destruct k as [|[|[|k]]]; cbn; lia.
    + intros i s E1. discriminate E1.
Qed.
