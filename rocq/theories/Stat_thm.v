(* C59: the code generated for statements. *)
Require Import ZArith List Bool Lia.
From Verif Require Import Base Float_model Op_model Op_spec Gen_model Gen_spec Gen_refute Stat_model Stat_spec Stat_proofs.
Import ListNotations.
Open Scope nat_scope.

(* the code generated for a block of tame statements does what the statements say: with a structural meaning of do, if, while, repeat and break, without jumps, the machine comes to the end of the code with the variables and the world the meaning says, or raises the error it says; if the meaning is not at its end after K rounds of some loop, the machine makes at least K steps. The declared types of the variables are kept. Missing for the full claim: goto, for, return, assignments to globals, fields, upvalues and several variables, closures, and the expressions and assignments that are not tame (C33, C35, C58) *)
Theorem C59_statements_partial : forall W (E : env W) ut n lt b fs fs' P s K, plain W E ut -> types_ok n lt ut -> starts n lt ut fs -> freereg fs = n -> btame ut (n, lt) b = true ->
  gbody (fmod E) (fpow E) fs b = Ok fs' -> goes_on fs' P -> (forall r, r < n -> hast (lt r) (reg s r)) ->
  match execb W E ut K (n, lt) b (reg s) (world s) with
  | Some o => computes W E P (pc fs, s) o (fun '(e, l) w c => e = Done /\ exists s', c = (pc fs', s') /\ world s' = w /\
      forall r, r < fst (after (n, lt) b) -> reg s' r = l r /\ hast (snd (after (n, lt) b) r) (reg s' r))
  | None => overflows W E P (pc fs, s) \/ can_run W E P K (pc fs, s)
  end.
Proof. exact statements_run. Qed.
Print Assumptions C59_statements_partial.

(* a program that does not end in the meaning does not end in the machine either: it can always make another step, or overflows. Missing: as above *)
Theorem C59_diverges_partial : forall W (E : env W) ut n lt b fs fs' P s, plain W E ut -> types_ok n lt ut -> starts n lt ut fs -> freereg fs = n -> btame ut (n, lt) b = true ->
  gbody (fmod E) (fpow E) fs b = Ok fs' -> goes_on fs' P -> (forall r, r < n -> hast (lt r) (reg s r)) ->
  (forall K, execb W E ut K (n, lt) b (reg s) (world s) = None) -> forall m, overflows W E P (pc fs, s) \/ can_run W E P m (pc fs, s).
Proof. exact statements_diverge. Qed.
Print Assumptions C59_diverges_partial.

(* the meaning is a partial function: more fuel does not change the result *)
Theorem C59_fuel : forall W (E : env W) ut K K' c b l w o, K <= K' -> execb W E ut K c b l w = Some o -> execb W E ut K' c b l w = Some o.
Proof. exact fuel_enough. Qed.
Print Assumptions C59_fuel.

(* f: any, i: integer
   while 0 < i do
     local d: integer = 1
     if i == 2 then break elseif not f then i = 7 else f(i) end
     repeat i = i - d; local x = i until x
   end *)
Definition lt1 : list tmap := [T_ANY; T_INT].
Definition loop1 : block :=
  BCons (SWhile (EBin (BCmp CLt) (EInt 0) (ELocal 1))
    (BCons (SLocal T_INT (EInt 1))
    (BCons (SIf (CThen (EBin (BCmp CEq) (ELocal 1) (EInt 2)) (BCons SBreak BNil)
                (CThen (EUn UNot (ELocal 0)) (BCons (SAssign 1 (EInt 7)) BNil)
                (CElse (BCons (SCall (ELocal 0) (ACons (ELocal 1) ANil)) BNil)))))
    (BCons (SRepeat (BCons (SAssign 1 (EBin (BArith Sub) (ELocal 1) (ELocal 2))) (BCons (SLocal T_ANY (ELocal 1)) BNil)) (ELocal 3)) BNil)))) BNil.
Example C59_witness :
  btame ut0 (2, lt0 lt1) loop1 = true /\ types_ok 2 (lt0 lt1) ut0 /\ starts 2 (lt0 lt1) ut0 (fs0 lt1) /\ freereg (fs0 lt1) = 2 /\ plain nat E0 ut0 /\
  (exists fs', gbody (fmod E0) (fpow E0) (fs0 lt1) loop1 = Ok fs' /\ length (code (dischargejpc fs')) = 17 /\
   exists s', go 28 (mkprog (code (dischargejpc fs')) (ks fs')) (0, st0 [Tab 0; I 4]) = Ok (17, s') /\ reg s' 1 = I 2 /\ world s' = 2) /\
  (exists l, execb nat E0 ut0 4 (2, lt0 lt1) loop1 (reg (st0 [Tab 0; I 4])) 0 = Some (Ok ((Done, l), 2)) /\ l 1 = I 2) /\
  (* with f = nil, i becomes 7, 6, 7, 6, ..: no end *)
  execb nat E0 ut0 100 (2, lt0 lt1) loop1 (reg (st0 [Nil; I 4])) 0 = None.
Proof.
  split; [reflexivity|]. split; [apply (types0 lt1); reflexivity|]. split; [exact (starts0 lt1)|]. split; [reflexivity|]. split; [exact plain0|]. split.
  - eexists. split; [vm_compute; reflexivity|]. split; [vm_compute; reflexivity|]. eexists. split; [vm_compute; reflexivity|]. split; vm_compute; reflexivity.
  - split; [eexists; split; [vm_compute; reflexivity|vm_compute; reflexivity]|vm_compute; reflexivity].
Qed.
