(* C37: deferred functions. *)
Require Import ZArith List Bool Lia.
From Verif Require Import Base Base_facts Defer_model Defer_spec Defer_proofs.
Import ListNotations.
Open Scope Z_scope.

(* a protected call of any program the compiler can emit, wherever the stack moves, ends with the events, the results or the error message that the meaning of defer prescribes, with the stack below and the open upvalues below as they were *)
Theorem C37_refines : forall moves sz c s func old, 0 <= sz -> legal [] sz c -> (forall u, In u (s_open s) -> u_idx u < old) -> old <= func + 1 ->
  let '(t, n', r) := D c [] (length (s_funs s)) in
  exists x s', (exists N, forall fuel, (N <= fuel)%nat -> luaD_pcall moves fuel s func sz c old = Ok (x, s')) /\
  s_log s' = s_log s ++ t /\ s_open s' = s_open s /\ (forall i, i < old -> s_stk s' i = s_stk s i) /\ length (s_funs s') = n' /\
  match r with DRet vs => x = RRet vs | DErr v => exists status, x = RErr status /\ is_error status /\ s_stk s' old = v /\ s_top s' = old + 1 end.
Proof. exact refines. Qed.
Print Assumptions C37_refines.

(* in that meaning every function registered by a defer statement is run exactly once, the newest pending first, and none is pending at the end *)
Theorem C37_balanced : forall c size n, legal [] size c -> let '(t, n', _) := D c [] n in
  check [] t = Some [] /\ (n <= n')%nat /\ registered t = seq n (n' - n) /\ Permutation.Permutation (ran t) (seq n (n' - n)) /\ NoDup (ran t).
Proof. exact balanced. Qed.
Print Assumptions C37_balanced.

(* lua_resetthread on a stopped thread runs what is pending as a normal exit would; the status and the message are those of the first error. Not covered by the claim: it is only called from coroutine.wrap *)
Theorem C37_reset_partial : forall moves es s, stopped s 1 es (s_open s) [] ->
  let '(t, n', o) := close_ok es (length (s_funs s)) in
  exists status s', (exists N, forall fuel, (N <= fuel)%nat -> lua_resetthread moves fuel s = Ok (status, s')) /\ s_log s' = s_log s ++ t /\ s_open s' = [] /\ s_stk s' 0 = VNil /\
  match o with None => status = LUA_OK /\ s_top s' = 1 | Some v => is_error status /\ s_stk s' 1 = v /\ s_top s' = 2 end.
Proof. exact reset_ok. Qed.
Print Assumptions C37_reset_partial.

(* it leaves nothing pending *)
Theorem C37_reset_all : forall moves es s, stopped s 1 es (s_open s) [] ->
  exists status s' t, (exists N, forall fuel, (N <= fuel)%nat -> lua_resetthread moves fuel s = Ok (status, s')) /\ s_log s' = s_log s ++ t /\ check (ids es) t = Some [].
Proof. exact reset_all. Qed.
Print Assumptions C37_reset_all.

(* the pcall of a resumed coroutine does the right thing if the stack has not moved while the deferred functions ran, and writes through a stale pointer if it has *)
Theorem C37_recover_partial : forall moves es s base rest status v, stopped s base es (s_open s) rest -> (forall u, In u rest -> u_idx u < base) -> is_error status -> message status (s_stk s (s_top s - 1)) = v ->
  let '(t, n') := close_err es v (length (s_funs s)) in
  exists s1, (exists N, forall fuel, (N <= fuel)%nat -> luaF_close moves fuel s (restorestack s base) status = Ok (CDone status, s1)) /\
  (s_gen s1 <> s_gen s -> exists N, forall fuel, (N <= fuel)%nat -> recover moves fuel s status base = UB) /\
  (s_gen s1 = s_gen s -> exists s', (exists N, forall fuel, (N <= fuel)%nat -> recover moves fuel s status base = Ok s') /\
    s_log s' = s_log s ++ t /\ s_open s' = rest /\ (forall i, i < base -> s_stk s' i = s_stk s i) /\ s_stk s' base = v /\ s_top s' = base + 1).
Proof. exact recover_ok. Qed.
Print Assumptions C37_recover_partial.

(* recover in ldo.c:683-705 takes oldtop before luaF_close, which calls deferred functions and so may move the stack; luaD_pcall takes it again *)

(*  *)
Theorem C37_recover_refuted : ~ (forall moves es s base rest status v, stopped s base es (s_open s) rest -> (forall u, In u rest -> u_idx u < base) -> is_error status -> message status (s_stk s (s_top s - 1)) = v ->
  exists s' N, forall fuel, (N <= fuel)%nat -> recover moves fuel s status base = Ok s').
Proof. exact recover_moves. Qed.
Print Assumptions C37_recover_refuted.

(* a coroutine that ends with an error, resumed by coroutine.resume, never runs its pending deferred functions: lua_resume does not close and luaE_freethread closes with NOCLOSINGMETH *)

(*  *)
Theorem C37_coroutine_refuted : ~ (forall moves size c s x s' s'' fuel, 0 <= size -> legal [] size c -> s_open s = [] -> s_log s = [] -> resume moves fuel s size c = Ok (x, s') -> luaE_freethread moves fuel s' = Ok s'' -> check [] (s_log s'') = Some []).
Proof. exact coroutine. Qed.
Print Assumptions C37_coroutine_refuted.

(* a function with a variable captured, two defers (the newer one fails), left by an error from a called function
   that has a defer of its own, inside pcall; then a block with a defer, and a tail call *)
Definition inner : code := Defer 1 (Print 1 (Ret [] false)) (Throw 2 (VData 50)).
Definition middle : code :=
  Local (VData 9) (Capture 0 (Defer 2 (Print 2 (Ret [] false)) (Defer 2 (Print 3 (Throw 2 (VData 60))) (Call 1 3 inner (fun _ => Ret [] false))))).
Definition leaf : code := Local (VData 4) (Get 0 (fun v => Ret [v; VNil] true)).
Definition outer : code :=
  PCall 6 middle (fun x => match x with
  | inr (VData z) => Local VNil (Defer 1 (Print 4 (Ret [] false)) (Print z (Leave true 1 (Print 5 (Capture 0 (Tail 2 3 leaf))))))
  | _ => Throw 2 VNil
  end).
Example C37_witness : legal [] 8 outer /\
  D outer [] 0 = ([Reg 0; Reg 1; Reg 2; Run 2 (VData 50); Out 1; Run 1 (VData 50); Out 3; Run 0 (VData 50); Out 2; Reg 3; Out 50; Run 3 VNil; Out 4; Out 5], 4%nat, DRet [VData 4; VNil]) /\
  forall b, exists s', luaD_pcall (fun _ => b) 60 (St (fun _ => VNil) [UpV 1 false 1] 4 0 0 [] []) 3 8 outer 3 = Ok (RRet [VData 4; VNil], s') /\
    s_log s' = [Reg 0; Reg 1; Reg 2; Run 2 (VData 50); Out 1; Run 1 (VData 50); Out 3; Run 0 (VData 50); Out 2; Reg 3; Out 50; Run 3 VNil; Out 4; Out 5].
Proof.
  split.
  - cbn. unfold is_error. repeat (split; [first [lia | eexists; reflexivity | intros; discriminate]|]). split; [repeat split; try lia; first [eexists; reflexivity | intros; discriminate | auto]|].
    intros [vs|[|k|z]]; cbn; unfold is_error; try lia. repeat split; try lia; try discriminate; first [eexists; reflexivity | repeat constructor; discriminate | repeat constructor | idtac]; intros; cbn; lia.
  - split; [vm_compute; reflexivity|]. intros [|]; eexists; split; vm_compute; reflexivity.
Qed.
(* a defer that fails while its function returns is the outcome of the call, and the older one gets its error *)
Example C37_witness_close : D (Defer 1 (Print 2 (Ret [] false)) (Defer 1 (Throw 4 VNil) (Ret [VData 1] false))) [] 0 = ([Reg 0; Reg 1; Run 1 VNil; Run 0 MEMERRMSG; Out 2], 2%nat, DErr MEMERRMSG).
Proof. vm_compute. reflexivity. Qed.
(* the coroutine of C37_coroutine_refuted: lua_resetthread would run the deferred function *)
Example C37_witness_reset : exists x s' s'', resume (fun _ => true) 20 fresh_thread 2 coro = Ok (x, s') /\ x = RErr 2 /\ s_log s' = [Reg 0] /\ stopped s' 1 [EVal (VData 5) false; EVal VNil false; EDef 0 (D (Print 7 (Ret [] false)) []); EVal VNil false] (s_open s') [] /\
  lua_resetthread (fun _ => true) 20 s' = Ok (0, s'') /\ s_log s'' = [Reg 0; Run 0 VNil; Out 7].
Proof.
  eexists. eexists. eexists. split; [vm_compute; reflexivity|]. split; [reflexivity|]. split; [reflexivity|]. split.
  - cbn. split; [reflexivity|]. split; [reflexivity|]. split; [reflexivity|]. split; [exists 1, (Print 7 (Ret [] false)); cbn; repeat split; lia|]. eexists. repeat split.
  - split; vm_compute; reflexivity.
Qed.
