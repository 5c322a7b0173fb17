(* C61: calls pass arguments and results exactly. *)
Require Import ZArith List Bool Lia.
From Verif Require Import Base Call_model Call_spec Call_proofs.
Import ListNotations.
Open Scope nat_scope.

(* a call of a Lua function, or of a value with a __call metamethod, which then gets the value as its first argument: the function runs with the arguments as parameters, nil for missing ones and the surplus ones kept; when it returns, the values it returns, cut or filled up with nil to the number asked for, are in the registers from the one of the function on; the registers below, whatever the function did to its own part of the stack, are unchanged and the top is the one of the caller, or behind the last result if all are asked for *)
Theorem C61_call : forall V nil kind_of crun (st : state V) f cs a b c v args v' args',
  cis V st = f :: cs -> stk V st (cbase f + a) = v -> operands V (stk V st) (top V st) (cbase f + a + 1) b args -> callee V kind_of v args v' args' ->
  exists st1 n, op_call V nil kind_of crun st a b c = Ok (st1, ELua) /\ cis V st1 = n :: f :: cs /\ runs V nil kind_of (stk V st1) n v' args' /\
  forall st2 a' b' rs, cis V st2 = n :: f :: cs -> kept_below V (cbase f + a) (stk V st1) (stk V st2) -> operands V (stk V st2) (top V st2) (cbase n + a') b' rs ->
  exists st3, op_return V nil st2 a' b' = Ok st3 /\ cis V st3 = f :: cs /\ kept_below V (cbase f + a) (stk V st) (stk V st3) /\
    (if c =? 0 then holds V (stk V st3) (cbase f + a) rs /\ top V st3 = cbase f + a + length rs
     else holds V (stk V st3) (cbase f + a) (adjust V nil (c - 1) rs) /\ top V st3 = ctop f).
Proof. exact call_returns. Qed.
Print Assumptions C61_call.

(* ... has the arguments that are not parameters, in order, cut or filled up to the number asked for; nothing else changes *)
Theorem C61_varargs : forall V nil kind_of (st : state V) c cs v np fsize args s a b,
  cis V st = c :: cs -> kind_of v = KLua V np true fsize -> runs V nil kind_of s c v args -> kept_below V (cbase c) s (stk V st) ->
  let vs := if b =? 0 then skipn np args else adjust V nil (b - 1) (skipn np args) in
  exists st', op_vararg V nil kind_of st a b = Ok st' /\ cis V st' = cis V st /\ holds V (stk V st') (cbase c + a) vs /\
    top V st' = (if b =? 0 then cbase c + a + length vs else top V st) /\
    (forall j, j < cbase c + a \/ cbase c + a + length vs <= j -> stk V st' j = stk V st j).
Proof. exact vararg_values. Qed.
Print Assumptions C61_varargs.

(* a return puts the values, adjusted, where the function was *)
Theorem C61_return : forall V nil (st : state V) c cs a b rs, cis V st = c :: cs -> cfunc c <= cbase c ->
  operands V (stk V st) (top V st) (cbase c + a) b rs -> (0 <= cnres c \/ cnres c = LUA_MULTRET)%Z ->
  exists st', op_return V nil st a b = Ok st' /\ cis V st' = cs /\ holds V (stk V st') (cfunc c) (adjust_to V nil (cnres c) rs) /\
    kept_below V (cfunc c) (stk V st) (stk V st') /\
    (cnres c = LUA_MULTRET -> top V st' = cfunc c + length rs) /\
    (cnres c <> LUA_MULTRET -> forall f cs', cs = f :: cs' -> top V st' = ctop f).
Proof. exact return_results. Qed.
Print Assumptions C61_return.

(* a tail call: the called function takes the place of the caller, runs with the same parameters and varargs as in a call, and will return to the caller of the caller with the number of results that one asked for *)
Theorem C61_tailcall : forall V nil kind_of crun (st : state V) f cs a b v args v' args',
  cis V st = f :: cs -> cfunc f < cbase f -> stk V st (cbase f + a) = v -> operands V (stk V st) (top V st) (cbase f + a + 1) b args -> callee V kind_of v args v' args' ->
  exists st' n, op_tailcall V nil kind_of crun st a b = Ok (st', ELua) /\ cis V st' = n :: cs /\ runs V nil kind_of (stk V st') n v' args' /\ top V st' = ctop n /\
    cfunc n = cfunc f /\ cnres n = cnres f /\ kept_below V (cfunc f) (stk V st) (stk V st').
Proof. exact tailcall_enters. Qed.
Print Assumptions C61_tailcall.

(* a call of a C function: the results are the values it left on top of the stack, adjusted. Missing for the full claim: the functions of RAVI_TFCF (C61_fastcall_refuted), functions compiled by the JIT, errors, yields *)
Theorem C61_cfunction_partial : forall V nil kind_of crun (st : state V) f cs a b c v args s' tp' n,
  cis V st = f :: cs -> stk V st (cbase f + a) = v -> operands V (stk V st) (top V st) (cbase f + a + 1) b args -> kind_of v = KC V ->
  (* the function gets its arguments; it keeps what is not its own *)
  crun v (stk V st) (cbase f + a) (cbase f + a + 1 + length args) = (s', tp', n) -> kept_below V (cbase f + a + 1) (stk V st) s' -> cbase f + a + 1 + n <= tp' ->
  exists st', op_call V nil kind_of crun st a b c = Ok (st', EC) /\ cis V st' = f :: cs /\ kept_below V (cbase f + a) (stk V st) (stk V st') /\
    (if c =? 0 then holds V (stk V st') (cbase f + a) (cells V s' (tp' - n) n) /\ top V st' = cbase f + a + n
     else holds V (stk V st') (cbase f + a) (adjust V nil (c - 1) (cells V s' (tp' - n) n)) /\ top V st' = ctop f).
Proof. exact cfunction_results. Qed.
Print Assumptions C61_cfunction_partial.

(* a fast C function from which at most one result is asked for, or all *)
Theorem C61_fastcall_partial : forall V nil kind_of crun (st : state V) f cs a b c v x g r,
  cis V st = f :: cs -> stk V st (cbase f + a) = v -> operands V (stk V st) (top V st) (cbase f + a + 1) b [x] -> kind_of v = KFast V g -> g x = Some r -> c <= 2 ->
  exists st', op_call V nil kind_of crun st a b c = Ok (st', EC) /\ cis V st' = f :: cs /\ kept_below V (cbase f + a) (stk V st) (stk V st') /\
    (if c =? 0 then holds V (stk V st') (cbase f + a) [r] /\ top V st' = cbase f + a + 1
     else holds V (stk V st') (cbase f + a) (adjust V nil (c - 1) [r]) /\ top V st' = ctop f).
Proof. exact fast_result. Qed.
Print Assumptions C61_fastcall_partial.

(* local x, y = f(7), with f made by ravi_pushcfastcall: luaD_precall (ldo.c:530-566) stores the one result and leaves the number of results asked for (nresults) out of account; y is the argument, 7, instead of nil *)
Theorem C61_fastcall_refuted : exists (kind_of : nat -> kind nat) crun (st st' : state nat) f, cis nat st = [f] /\ kind_of (stk nat st (cbase f)) = KFast nat (fun _ => Some 5) /\
  operands nat (stk nat st) (top nat st) (cbase f + 1) 2 [7] /\
  op_call nat 0 kind_of crun st 0 2 3 = Ok (st', EC) /\ stk nat st' (cbase f) = 5 /\ stk nat st' (cbase f + 1) = 7 /\ adjust nat 0 2 [5] = [5; 0].
Proof. exact fast_two. Qed.
Print Assumptions C61_fastcall_refuted.

(* function 3 has two parameters and varargs, function 4 one parameter; table 5 has the metamethod 4. The caller is at 0, its registers begin at 1 *)
Definition kinds (v : nat) : kind nat := match v with 3 => KLua nat 2 true 5 | 4 => KLua nat 1 false 4 | 5 => KOther nat (Some 4) | _ => KOther nat None end.
Definition noc (v : nat) (s : stack nat) (f t : nat) : stack nat * nat * nat := (s, t, 0).
Definition start (l : list nat) : state nat := mkSt nat (fun i => nth i l 0) 7 [mkCI 0 1 7 0%Z].
Definition view (n : nat) (o : outcome (state nat * entered)) : outcome (list nat * nat * list ci) :=
  match o with Ok (st, _) => Ok (cells nat (stk nat st) 0 n, top nat st, cis nat st) | Err e => Err e | UB => UB | OutOfFuel => OutOfFuel end.
Definition view1 (n : nat) (o : outcome (state nat)) : outcome (list nat * nat * list ci) := view n (bind o (fun s => Ok (s, ELua))).
Example C61_witness :
  callee nat kinds 3 [7; 8; 9; 6] 3 [7; 8; 9; 6] /\ callee nat kinds 5 [7] 4 [5; 7] /\
  (* 3(7, 8, 9, 6), three results *)
  view 11 (op_call nat 0 kinds noc (start [3; 1; 3; 7; 8; 9; 6]) 1 5 4) = Ok ([3; 1; 3; 0; 0; 9; 6; 7; 8; 0; 0], 12, [mkCI 2 7 12 3%Z; mkCI 0 1 7 0%Z]) /\
  (* local a, b, c = ... *)
  (exists st, op_call nat 0 kinds noc (start [3; 1; 3; 7; 8; 9; 6]) 1 5 4 = Ok (st, ELua) /\ view1 12 (op_vararg nat 0 kinds st 2 4) = Ok ([3; 1; 3; 0; 0; 9; 6; 7; 8; 9; 6; 0], 12, [mkCI 2 7 12 3%Z; mkCI 0 1 7 0%Z]) /\
    (* return b, a *)
    view1 7 (op_return nat 0 st 0 3) = Ok ([3; 1; 7; 8; 0; 9; 6], 7, [mkCI 0 1 7 0%Z]) /\
    (* return 3(8, ..) as a tail call, all results to the caller *)
    view 7 (op_tailcall nat 0 kinds noc (mkSt nat (upd nat (stk nat st) 9 5) 12 (cis nat st)) 2 2) = Ok ([3; 1; 4; 5; 0; 9; 6], 7, [mkCI 2 3 7 3%Z; mkCI 0 1 7 0%Z])).
Proof.
  split; [split; [do 3 eexists; reflexivity|left; split; reflexivity]|]. split; [split; [do 3 eexists; reflexivity|right; split; reflexivity]|].
  split; [vm_compute; reflexivity|]. eexists. split; [vm_compute; reflexivity|]. split; [vm_compute; reflexivity|]. split; vm_compute; reflexivity.
Qed.
