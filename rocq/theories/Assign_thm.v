(* C64: assignments evaluate everything first. *)
Require Import ZArith List Bool Lia.
From Verif Require Import Base Assign_model Assign_spec Assign_proofs.
Import ListNotations.
Open Scope nat_scope.

(* the code of an assignment evaluates the tables and keys of the targets and all the values, adjusts the values to the targets and then assigns from the last target to the first, provided the calls and metamethods involved do not themselves assign to a variable that occurs as table or key of a target *)
Theorem C64_assign_partial : forall V W nilv kval fits nact ev evm settable junk ts x xs fr,
  ts <> [] -> nact <= fr -> locals_ok nact ts (x :: xs) ->
  (forall y, operand ts y -> undisturbed V W nilv ev evm settable y) ->
  exists c fr', assignment fits nact fr ts x xs = Ok (c, fr') /\
    forall s, result V W (exec V W nilv kval nact ev evm settable junk c s) =
      assignment_means V W nilv kval ev evm settable (vars V W s) ts x xs.
Proof. exact assign_partial. Qed.
Print Assumptions C64_assign_partial.

(* without any proviso when the targets are variables *)
Theorem C64_variables : forall V W nilv kval fits nact ev evm settable junk ts x xs fr,
  ts <> [] -> nact <= fr -> locals_ok nact ts (x :: xs) ->
  (forall t, In t ts -> match t with TInd _ _ => False | _ => True end) ->
  exists c fr', assignment fits nact fr ts x xs = Ok (c, fr') /\
    forall s, result V W (exec V W nilv kval nact ev evm settable junk c s) =
      assignment_means V W nilv kval ev evm settable (vars V W s) ts x xs.
Proof. exact assign_variables. Qed.
Print Assumptions C64_variables.

(* t.x, u.x = 1, 2 where the __newindex handler of u sets t: the table t is read from its register after the first of the assignments was performed, so 1 goes to the new table (check_conflict, lparser.c:1859-1885, makes a copy only when t itself is one of the targets) *)
Theorem C64_metamethod_refuted : exists settable, ~ always ev0 settable.
Proof. exact meta_refuted. Qed.
Print Assumptions C64_metamethod_refuted.

(* t.x = f() where f sets t: the table is read after the call *)
Theorem C64_call_refuted : exists ev, ~ always ev log0.
Proof. exact call_refuted. Qed.
Print Assumptions C64_call_refuted.

(* a[i], i, a, b = 20, i + 1, f() where f returns 5, 6: registers 0 i, 1 a, 2 b; both
   i and a are saved before they are assigned *)
Example C64_witness :
  exists c, assignment (fun _ => true) 3 3
      [TInd (PLoc 1) (KLoc 0); TLoc 0; TLoc 1; TLoc 2] (ECst 20) [ERel 0; ECall 0] = Ok (c, 5) /\
  c = [IMove 3 0; IMove 4 1; ILoadk 5 20; IExpr 6 0 6; IMulti 7 0 2;
       IMove 2 8; IMove 1 7; IMove 0 6; ISettable 4 (RReg 3) (RReg 5)] /\
  result nat W0 (exec nat W0 0 (fun k => k) 3 ev0 evm0 log0 (fun _ => 99) c (St _ _ (e0 [3; 10; 11] []) (fun _ => 0)))
    = Ok (Env nat W0 [4; 5; 6] [] [(10, 3, 20)]) /\
  operand [TInd (PLoc 1) (KLoc 0); TLoc 0; TLoc 1; TLoc 2] (VL 0) /\
  undisturbed nat W0 0 (fun i => ev0 0) evm0 log0 (VL 0).
Proof.
  eexists. split; [vm_compute; reflexivity|]. split; [reflexivity|]. split; [vm_compute; reflexivity|]. split.
  - exists (PLoc 1), (KLoc 0). simpl. auto.
  - unfold undisturbed, ev0, evm0, log0. repeat split; intros; inversion H; subst; reflexivity.
Qed.
