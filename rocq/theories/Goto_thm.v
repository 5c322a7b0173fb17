(* C62: gotos lead to the visible label and close what they leave. *)
Require Import ZArith List Bool Lia.
From Verif Require Import Base Goto_model Goto_spec Goto_facts Goto_proofs.
Import ListNotations.
Open Scope nat_scope.

(* a program whose gotos follow the rules compiles, and the jumps are exactly those of its gotos and breaks, each to the label of that name in the innermost block around it that has one, or behind the innermost loop; a jump closes the captured variables whose scope it leaves and no variable that is in scope at both ends; a program with a goto into the scope of a local, with a label twice in a block or without a visible label for a goto is rejected *)
Theorem C62_gotos : forall b,
  if legal (SFunc b) 0 0 [] then exists lg, compile_gotos b = Ok lg /\ implement lg (jumps (SFunc b) 0 0 []) else exists e, compile_gotos b = Err e.
Proof. exact gotos_resolved. Qed.
Print Assumptions C62_gotos.

(* every goto of an accepted program gets its target, and only once *)
Theorem C62_each : forall b lg, compile_gotos b = Ok lg ->
  NoDup (map from lg) /\ forall q, In q (gotos (SFunc b) 0) -> In q (map from lg).
Proof. exact one_jump_each. Qed.
Print Assumptions C62_each.

(* while c do local a (captured); if a then local b (captured); goto continue end; ::continue:: end
   do goto l; local x; ::l:: end  -- the label is at the end of the block
   ::top:: local y (captured); if y then goto top end; do ::top:: f(); goto top end; and a function with a loop of its own *)
Fixpoint list_block (l : list stmt) : block := match l with [] => BNil | x :: l => BCons x (list_block l) end.
Definition loop1 : stmt := SBlock true (list_block [SCode; SBlock false (list_block [SLocal true; SCode; SBlock false (list_block [SLocal true; SGoto 5; SCode]); SCode; SBlock false (list_block [SGoto BREAK]); SLabel 5; SVoid; SLabel 6]); SCode]).
Definition prog : block := list_block [loop1; SBlock false (list_block [SGoto 3; SLocal false; SLabel 3]); SLabel 4; SLocal true; SCode; SBlock false (list_block [SGoto 4]); SBlock false (list_block [SLabel 4; SCode; SGoto 4]); SFunc (list_block [SCode; SLabel 4; SGoto 4])].
Example C62_witness :
  legal (SFunc prog) 0 0 [] = true /\
  compile_gotos prog = Ok [(2, 7, 2); (6, 9, 1); (9, 10, 0); (11, 10, 1); (13, 12, 0); (15, 15, 0)] /\
  jumps (SFunc prog) 0 0 [] = [mkJ 2 7 1 [1; 0]; mkJ 6 9 0 [0]; mkJ 9 10 0 []; mkJ 13 12 1 [0]; mkJ 15 15 0 []; mkJ 11 10 0 [0]] /\
  (* the same goto with code behind the label; a goto out of a function; a label twice; a break outside of loops *)
  compile_gotos (list_block [SGoto 3; SLocal false; SLabel 3; SCode]) = Err EFormat /\
  compile_gotos (list_block [SLabel 3; SFunc (list_block [SGoto 3])]) = Err EFormat /\
  compile_gotos (list_block [SLabel 3; SCode; SLabel 3]) = Err EFormat /\
  compile_gotos (list_block [SGoto BREAK; loop1]) = Err EFormat.
Proof. repeat split; vm_compute; reflexivity. Qed.
