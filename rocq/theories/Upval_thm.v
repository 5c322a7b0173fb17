(* C36: upvalues and closures. *)
Require Import ZArith List Bool Lia.
From Verif Require Import Base Base_facts Upval_model Upval_spec Upval_proofs.
Import ListNotations.
Open Scope Z_scope.

(* in every state that can be reached every operation of a program goes through (never a freed upvalue, never a comparison of unrelated pointers) and does and gives what the language says: shared variables, separate instances *)
Theorem C36_refines : forall protos s A o, runs protos s A -> legal protos s A o -> exists s' r A', step s o = Ok (s', r) /\ astep A o r A' /\ runs protos s' A'.
Proof. exact refines. Qed.
Print Assumptions C36_refines.

(* a write through one closure is read through every closure with the same variable and through no other *)
Theorem C36_shared : forall protos s A k1 n1 c1 x k2 n2 c2 y v s' r, runs protos s A -> clos A k1 c1 -> at_ c1 n1 x -> clos A k2 c2 -> at_ c2 n2 y -> step s (SetUp k1 n1 v) = Ok (s', r) ->
  (x = y -> step s' (GetUp k2 n2) = Ok (s', Some v)) /\
  (x <> y -> exists w, step s (GetUp k2 n2) = Ok (s, Some w) /\ step s' (GetUp k2 n2) = Ok (s', Some w)).
Proof. exact shared. Qed.
Print Assumptions C36_shared.

(* the same between a closure and the register of a variable whose scope is active *)
Theorem C36_slot : forall protos s A t i v k n c y, runs protos s A -> clos A k c -> at_ c n y ->
  exists s', step s (SetReg t i v) = Ok (s', None) /\ exists w, step s (GetUp k n) = Ok (s, Some w) /\ step s' (GetUp k n) = Ok (s', Some (if (let '(t', i', g) := y in (t' =? t) && (i' =? i) && (g =? a_cur A t i)) then v else w)) /\
  exists s2, step s (SetUp k n v) = Ok (s2, None) /\ exists w', step s (GetReg t i) = Ok (s, Some w') /\ step s2 (GetReg t i) = Ok (s2, Some (if (let '(t', i', g) := y in (t' =? t) && (i' =? i) && (g =? a_cur A t i)) then v else w')).
Proof. exact shared_slot. Qed.
Print Assumptions C36_slot.

(* when the scope ends closures keep the value, and later writes to the register do not reach them *)
Theorem C36_closed : forall protos s A t level k n c x i v, runs protos s A -> clos A k c -> at_ c n x -> level <= i -> exists s' s2 w,
  step s (GetUp k n) = Ok (s, Some w) /\ step s (Close t level) = Ok (s', None) /\ step s' (GetUp k n) = Ok (s', Some w) /\ step s' (SetReg t i v) = Ok (s2, None) /\ step s2 (GetUp k n) = Ok (s2, Some w).
Proof. exact closed. Qed.
Print Assumptions C36_closed.

(* the reference count of an upvalue is the number of closures slots that refer to it; an upvalue that is neither referenced nor open does not stay allocated; the upvalue of a defer is never in a closure *)
Theorem C36_refcounts : forall protos s A a u, runs protos s A -> s_up s a = Some u ->
  u_ref u = Z.of_nat (count_occ Z.eq_dec (concat (map (fun c => match c with Some l => l | None => [] end) (s_clos s))) a) /\
  (0 < u_ref u \/ exists t i, u_loc u = Open t i /\ In a (s_open s t)) /\ (u_flags u = true -> forall t i, u_loc u = Open t i -> u_ref u = 0).
Proof. exact refcounts. Qed.
Print Assumptions C36_refcounts.

(* OP_RAVI_DEFER gives the register an open upvalue of its own, marked and not shared with any closure *)
Theorem C36_defer : forall protos s A t i a s' r, runs protos s A -> legal protos s A (Defer t i a) -> step s (Defer t i a) = Ok (s', r) -> exists b u, In b (s_open s' t) /\ s_up s' b = Some u /\ u_loc u = Open t i /\ u_flags u = true /\ u_ref u = 0 /\ s_stk s' t i = VNil.
Proof. exact deferred. Qed.
Print Assumptions C36_defer.

(* two iterations of a loop whose body makes two closures over the loop variable (prototypes 1 and 2), the second
   of them again in each iteration (it comes from the cache), a defer, a closure collected, a join *)
Definition protos (p : Z) : list desc := if p =? 1 then [Desc true 3] else if p =? 2 then [Desc true 3; Desc true 0] else if p =? 3 then [Desc false 1; Desc false 0] else [].
Fixpoint run (s : st) (l : list op) : outcome (st * list value) :=
  match l with [] => Ok (s, []) | o :: l => bind (step s o) (fun '(s, r) => bind (run s l) (fun '(s, vs) => Ok (s, match r with Some v => v :: vs | None => vs end))) end.
Definition iteration (v f : Z) : list op := [NewVar 7 13 (VData v); Closure 1 0 7 10 (protos 1) [f] false; Closure 2 0 7 10 (protos 2) [f + 1; f + 2] false; Closure 2 0 7 10 (protos 2) [f + 3; f + 4] false; Close 7 13].
Definition history : list op :=
  [NewVar 7 10 (VData 0)] ++ iteration 41 100 ++ iteration 42 200 ++
  [SetUp 1 0 (VData 50); GetUp 2 0; GetUp 3 0; GetUp 4 0;          (* instances of the loop variable *)
   SetUp 2 1 (VData 60); GetReg 7 10; GetUp 4 1; SetReg 7 10 (VData 61); GetUp 4 1;   (* the outer variable is one *)
   Closure 3 4 7 20 (protos 3) [300; 301] false; Free 2; Free 4; Defer 7 25 302; Close 7 10; GetUp 5 0; GetUp 5 1; Join 5 1 1 0; SetUp 5 1 (VData 70); GetUp 1 0].
Example C36_witness : exists s, run (start (fun _ _ => VNil)) history =
  Ok (s, [VFun 1; VFun 2; VFun 2; VFun 3; VFun 4; VFun 4; VData 50; VData 42; VData 42; VData 60; VData 60; VData 61; VFun 5; VData 61; VData 42; VData 70]) /\
  map (fun a => s_up s a) [100; 102; 200; 202; 302] = [Some (UpV 2 false (Closed (VData 70))); Some (UpV 1 false (Closed (VData 61))); Some (UpV 1 false (Closed (VData 42))); None; None].
Proof. eexists. split; vm_compute; reflexivity. Qed.
(* the start of that history is one the theorems speak of *)
Example C36_witness_runs : exists s A c1 c2, runs protos s A /\ clos A 1 c1 /\ at_ c1 0 (7, 13, 1) /\ clos A 2 c2 /\ at_ c2 0 (7, 13, 1) /\ at_ c2 1 (7, 10, 1) /\ step s (GetUp 2 0) = Ok (s, Some (VData 41)).
Proof.
  pose proof (runs_start protos (fun _ _ => VNil)) as R0.
  assert (U0 : forall t i, uncaptured (astart (fun _ _ => VNil)) t i) by (intros t i [|[|k]] c H IN; unfold clos in H; cbn in H; [injection H as <-; exact IN|discriminate|discriminate]).
  pose proof (runs_step _ _ _ (NewVar 7 10 (VData 0)) _ _ _ R0 (U0 7 10) eq_refl (S_new _ 7 10 (VData 0))) as R1.
  match type of R1 with runs _ ?s ?A => assert (L1 : legal protos s A (NewVar 7 13 (VData 41))) by (intros [|[|k]] c H IN; unfold clos in H; cbn in H; [injection H as <-; exact IN|discriminate|discriminate]) end.
  pose proof (runs_step _ _ _ (NewVar 7 13 (VData 41)) _ _ _ R1 L1 eq_refl (S_new _ 7 13 (VData 41))) as R2.
  match type of R2 with runs _ ?s ?A => assert (L2 : legal protos s A (Closure 1 0 7 10 (protos 1) [100] false)) by (split; [reflexivity|]; split; [exists []; split; [reflexivity|]; intros d [<-|[]]; discriminate|]; split; [reflexivity|]; split; [repeat constructor; intros []|]; intros a [<-|[]]; reflexivity) end.
  match type of R2 with runs _ ?s ?A => pose proof (runs_step protos s A (Closure 1 0 7 10 (protos 1) [100] false) _ _ _ R2 L2 eq_refl (S_closure A 1 0 7 10 (protos 1) [100] false [] [(7, 13, 1)] eq_refl eq_refl)) as R3 end.
  match type of R3 with runs _ ?s ?A => assert (L3 : legal protos s A (Closure 2 0 7 10 (protos 2) [101; 102] false)) by (split; [reflexivity|]; split; [exists []; split; [reflexivity|]; intros d [<-|[<-|[]]]; discriminate|]; split; [reflexivity|]; split; [repeat constructor; [intros [E|[]]; discriminate|intros []]|]; intros a [<-|[<-|[]]]; reflexivity) end.
  match type of R3 with runs _ ?s ?A => pose proof (runs_step protos s A (Closure 2 0 7 10 (protos 2) [101; 102] false) _ _ _ R3 L3 eq_refl (S_closure A 2 0 7 10 (protos 2) [101; 102] false [] [(7, 13, 1); (7, 10, 1)] eq_refl eq_refl)) as R4 end.
  eexists. eexists. eexists. eexists. split; [exact R4|]. split; [reflexivity|]. split; [split; [lia|reflexivity]|]. split; [reflexivity|]. split; [split; [lia|reflexivity]|]. split; [split; [lia|reflexivity]|]. reflexivity.
Qed.
