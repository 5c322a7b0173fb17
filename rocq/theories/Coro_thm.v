(* C65: coroutines pass values exactly. *)
Require Import ZArith List Bool Lia.
From Verif Require Import Base Coro_model Coro_spec Coro_proofs.
Import ListNotations.
Open Scope nat_scope.

(* every program gets from its coroutines exactly the values, errors, status strings and messages that the stackless description gives it; the description has the wrong message of C65_message_refuted built in (as_coded) *)
Theorem C65_coroutines_partial : forall bodies maxcc where_ d fuel p,
  result (exec bodies maxcc where_ fuel 0 p (start d)) =
  sresult (run bodies maxcc where_ true fuel d 0 p alone).
Proof. exact coroutines_ok. Qed.
Print Assumptions C65_coroutines_partial.

(* programs that use coroutine.resume only also get the right messages *)
Theorem C65_resume_only : forall bodies maxcc where_, (forall b vs, plain (bodies b vs)) -> forall d fuel p, plain p ->
  result (exec bodies maxcc where_ fuel 0 p (start d)) =
  sresult (run bodies maxcc where_ false fuel d 0 p alone).
Proof. exact plain_ok. Qed.
Print Assumptions C65_resume_only.

(* no program makes a thread with a stack of the wrong shape be resumed, and an error is always one value *)
Theorem C65_safe : forall bodies maxcc where_ d fuel p,
  match result (exec bodies maxcc where_ fuel 0 p (start d)) with
  | Ok (true, _) | OutOfFuel => True
  | Ok (false, vs) => length vs = 1
  | Err _ | UB => False
  end.
Proof. exact no_ub. Qed.
Print Assumptions C65_safe.

(* a coroutine that waits in a call of a function made by coroutine.wrap is not dead, but has an empty frame on top (auxresume has moved the arguments away), and resuming it reports 'cannot resume dead coroutine' instead of 'cannot resume non-suspended coroutine' (lcorolib.c:34) *)
Theorem C65_message_refuted : exists bodies maxcc where_ fuel d p vs,
  result (exec bodies maxcc where_ fuel 0 p (start d)) = Ok (true, vs) /\ In (Str MDead) vs /\
  exists ws, sresult (run bodies maxcc where_ false fuel d 0 p alone) = Ok (true, ws) /\ In (Str MNonsuspended) ws /\
    ~ In (Str MDead) ws.
Proof. exact message_wrong. Qed.
Print Assumptions C65_message_refuted.

(* a generator: coroutine 1 adds what it is given to what it yields.  The main program
   gets [7], then [8; nil] of two wanted results, then what it returns, then the error
   of a dead coroutine and its status *)
Definition gen_bodies (b : nat) (args : list value) : prog :=
  Yield args [Dat 7] (Some 2) (fun l =>
    Yield l [Dat 8] None (fun l => Ret l)).
Definition gen_main : prog :=
  Create [] 1 (fun l =>
  Resume l 1 [Dat 1] None (fun l =>
  Resume l 1 [Dat 2] (Some 3) (fun l =>
  Wrapped l 1 [Dat 3; Dat 4] None (fun l =>
  Resume l 1 [] None (fun l =>
  Status l 1 Ret))))).

Example C65_witness :
  result (exec gen_bodies 200 (fun v => v) 20 0 gen_main (start 3)) =
    Ok (true, [Thr 1; Bool true; Dat 7; Bool true; Dat 8; Nil; Dat 1; Dat 2; Nil; Dat 3; Dat 4;
      Bool false; Str MDead; Str MSDead]) /\
  result (exec gen_bodies 5 (fun v => v) 20 0 gen_main (start 4)) =
    Ok (false, [Str MCstack]) /\
  plain (Resume [] 0 [] None Ret).
Proof. split; [vm_compute; reflexivity|]. split; [vm_compute; reflexivity|]. constructor. intros. constructor. Qed.
