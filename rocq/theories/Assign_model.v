(* Assignment statements: what the parser emits for  v1, v2, ... = e1, e2, ...
   and what that code does.

   Modelled, from /repo/src:
   - lparser.c:1859-1885 check_conflict, lparser.c:1892-1927 assignment,
     lparser.c:750-770 adjust_assign, lparser.c:1393-1402 explist
   - lcode.c:1027-1067 luaK_storevar (for variables without a declared type),
     lcode.c:1241-1249 luaK_indexed, lcode.c:398-417 freereg and freeexp,
     lcode.c:527-575 luaK_setreturns and luaK_setoneret,
     lcode.c:583-636 luaK_dischargevars, lcode.c:650-700 discharge2reg,
     lcode.c:789-814 luaK_exp2nextreg and luaK_exp2anyreg,
     lcode.c:842-862 luaK_exp2RK

   Simplified:
   - an expression other than a local variable, a constant or an open call is
     one instruction IExpr that evaluates it; what it does is a parameter.  It
     may change the local variables (through closures that captured them), the
     upvalues and the rest of the world, and it overwrites every register from
     the first free one on.
   - the number of results of an open call or of '...' is patched into the
     instruction after it was emitted; here the instruction is emitted when the
     number is known.  No code is emitted in between.
   - the limits on registers, constants and nested calls and the merging of
     OP_LOADNIL (C51) are left out; variables have no declared type (C33). *)

Require Import Verif.Base.
From Coq Require Import List Arith Bool.
Import ListNotations.
Local Open Scope outcome_scope.
Local Open Scope nat_scope.

Section M.
  Variables V W : Type.
  Variable nilv : V.
  Variable kval : nat -> V.          (* the constants of the function *)
  Variable fits : nat -> bool.       (* constant index <= MAXINDEXRK (lcode.c:855) *)
  Variable nact : nat.               (* registers below are local variables (fs->nactvar) *)

  (* what expressions and stores can see and change *)
  Record env := Env { locs : list V; ups : list V; wld : W }.

  Variable ev : nat -> env -> outcome (V * env).            (* an expression with one value *)
  Variable evm : nat -> env -> outcome (list V * env).      (* a call or '...' with all its values *)
  Variable settable : env -> V -> V -> V -> outcome env.    (* t[k] = v, metamethods included *)
  Variable junk : nat -> V.          (* what evaluation leaves in the free registers *)

  (* targets as written: lparser.c:1901 suffixedexp *)
  Inductive pre := PLoc (r : nat) | PUp (u : nat) | PExp (i : nat).
  Inductive key := KLoc (r : nat) | KCst (k : nat) | KExp (i : nat).
  Inductive target := TLoc (r : nat) | TUp (u : nat) | TInd (p : pre) (k : key).

  (* values as written.  ENon is an expression whose code leaves its value in
     the register it reserved (VNONRELOC), ERel one whose last instruction gets
     its register later (VRELOCABLE), ECall a function call, EDots '...' *)
  Inductive exp := ELoc (r : nat) | ECst (k : nat) | ERel (i : nat) | ENon (i : nat)
    | ECall (i : nat) | EDots (i : nat).

  (* a register or constant operand *)
  Inductive rk := RReg (r : nat) | RKst (k : nat).

  (* expdesc of a target: VLOCAL, VUPVAL, VINDEXED with vt = VUPVAL iff up *)
  Inductive lhs := LLoc (r : nat) | LUp (u : nat) | LInd (up : bool) (t : nat) (idx : rk).

  (* expdesc of a value: VLOCAL, constant, VRELOCABLE, VNONRELOC, VCALL at
     register b, VVARARG *)
  Inductive xd := XLoc (r : nat) | XK (k : nat) | XRel (i : nat) | XNon (r : nat)
    | XCall (b i : nat) | XDots (i : nat).

  Inductive instr :=
  | IMove (a b : nat)                       (* OP_MOVE *)
  | IGetup (a u : nat)                      (* OP_GETUPVAL *)
  | ISetup (a u : nat)                      (* OP_SETUPVAL *)
  | ILoadk (a k : nat)                      (* OP_LOADK, OP_LOADNIL, OP_LOADBOOL of a constant *)
  | ILoadnil (a n : nat)                    (* OP_LOADNIL of n registers *)
  | IExpr (a i fr : nat)                    (* expression i into a; registers from fr on are scratch *)
  | IMulti (a i n : nat)                    (* OP_CALL / OP_VARARG: n values into a, a+1, ... *)
  | ISettable (t : nat) (idx v : rk)        (* OP_SETTABLE *)
  | ISettabup (u : nat) (idx v : rk).       (* OP_SETTABUP *)

  (* ----- the generated code ----- *)

  (* lcode.c:398-407: the register to free is the last one (lua_assert) *)
  Definition freereg (fr r : nat) : outcome nat :=
    if r <? nact then Ok fr
    else if fr =? S r then Ok r else UB.

  (* lcode.c:409-412 *)
  Definition freeexp (fr : nat) (x : xd) : outcome nat :=
    match x with XNon r => freereg fr r | _ => Ok fr end.

  (* lcode.c:554-566 luaK_setoneret: a call keeps its first value in its base
     register, '...' becomes relocatable; here its register is the next one and
     exp2reg can only move it further, see [exp2reg] *)
  Definition setoneret (fr : nat) (x : xd) : list instr * xd :=
    match x with
    | XCall b i => ([IMulti b i 1], XNon b)
    | _ => ([], x)
    end.

  (* lcode.c:650-700 discharge2reg on an expression without jumps *)
  Definition exp2reg (fr : nat) (x : xd) (a : nat) : list instr :=
    match x with
    | XLoc r | XNon r => if r =? a then [] else [IMove a r]
    | XK k => [ILoadk a k]
    | XRel i => [IExpr a i fr]
    | XDots i => [IMulti a i 1]
    | XCall _ _ => []
    end.

  (* lcode.c:789-794 *)
  Definition exp2nextreg (fr : nat) (x : xd) : outcome (list instr * nat) :=
    let '(c, x1) := setoneret fr x in
    do fr1 <- freeexp fr x1;
    Ok (c ++ exp2reg fr x1 fr1, S fr1).

  (* lcode.c:801-814 *)
  Definition exp2anyreg (fr : nat) (x : xd) : outcome (list instr * nat * nat) :=
    let '(c, x1) := setoneret fr x in
    match x1 with
    | XLoc r | XNon r => Ok (c, fr, r)
    | _ => do '(c2, fr2) <- exp2nextreg fr x1; Ok (c ++ c2, fr2, fr)
    end.

  (* lcode.c:842-862 *)
  Definition exp2rk (fr : nat) (x : xd) : outcome (list instr * nat * rk) :=
    match x with
    | XK k => if fits k then Ok ([], fr, RKst k)
              else do '(c, fr1, r) <- exp2anyreg fr x; Ok (c, fr1, RReg r)
    | _ => do '(c, fr1, r) <- exp2anyreg fr x; Ok (c, fr1, RReg r)
    end.

  (* freeexp on the expression after exp2RK (lcode.c:1066) *)
  Definition freerk (fr : nat) (o : rk) : outcome nat :=
    match o with RReg r => freereg fr r | RKst _ => Ok fr end.

  (* lcode.c:1027-1067 *)
  Definition storevar (fr : nat) (v : lhs) (x : xd) : outcome (list instr * nat) :=
    match v with
    | LLoc r =>
        do fr1 <- freeexp fr x;
        Ok (exp2reg fr x r, fr1)
    | LUp u =>
        do '(c, fr1, r) <- exp2anyreg fr x;
        do fr2 <- freereg fr1 r;
        Ok (c ++ [ISetup r u], fr2)
    | LInd up t idx =>
        do '(c, fr1, o) <- exp2rk fr x;
        do fr2 <- freerk fr1 o;
        Ok (c ++ [if up then ISettabup t idx o else ISettable t idx o], fr2)
    end.

  (* lparser.c:1901 suffixedexp: the table goes to a register or stays an
     upvalue (luaK_exp2anyregup), then the key, then luaK_indexed *)
  Definition suffixed (fr : nat) (t : target) : outcome (list instr * nat * lhs) :=
    match t with
    | TLoc r => Ok ([], fr, LLoc r)
    | TUp u => Ok ([], fr, LUp u)
    | TInd p k =>
        let '(c1, fr1, up, tr) :=
          match p with
          | PLoc r => ([], fr, false, r)
          | PUp u => ([], fr, true, u)
          | PExp i => ([IExpr fr i fr], S fr, false, fr)
          end in
        do '(c2, fr2, idx) <-
          exp2rk fr1 match k with KLoc r => XLoc r | KCst n => XK n | KExp i => XRel i end;
        Ok (c1 ++ c2, fr2, LInd up tr idx)
    end.

  (* lparser.c:1866-1877: does a previous target use the variable; and the
     target with the safe copy in its place *)
  Definition uses_tab (v l : lhs) : bool :=
    match v, l with
    | LLoc r, LInd up t _ => negb up && (t =? r)
    | LUp u, LInd up t _ => up && (t =? u)
    | _, _ => false
    end.

  Definition uses_idx (v l : lhs) : bool :=
    match v, l with
    | LLoc r, LInd _ _ (RReg i) => i =? r
    | _, _ => false
    end.

  Definition redirect (extra : nat) (v l : lhs) : lhs :=
    match l with
    | LInd up t idx =>
        let '(up1, t1) := if uses_tab v l then (false, extra) else (up, t) in
        LInd up1 t1 (if uses_idx v l then RReg extra else idx)
    | _ => l
    end.

  (* lparser.c:1859-1885 *)
  Definition check_conflict (fr : nat) (prev : list lhs) (v : lhs) : list instr * nat * list lhs :=
    let prev1 := map (redirect fr v) prev in
    if existsb (fun l => uses_tab v l || uses_idx v l) prev then
      ([match v with LUp u => IGetup fr u | LLoc r => IMove fr r | LInd _ _ _ => IMove fr fr end], S fr, prev1)
    else ([], fr, prev1).

  Definition indexed (v : lhs) : bool := match v with LInd _ _ _ => true | _ => false end.

  (* lparser.c:1895-1908: the targets from left to right; the list of those
     read so far, the last one first (struct LHS_assign) *)
  Fixpoint targets (fr : nat) (prev : list lhs) (ts : list target) : outcome (list instr * nat * list lhs) :=
    match ts with
    | [] => Ok ([], fr, prev)
    | t :: ts' =>
        do '(c1, fr1, nv) <- suffixed fr t;
        let '(c2, fr2, prev1) :=
          if indexed nv then ([], fr1, prev) else check_conflict fr1 prev nv in
        do '(c3, fr3, ls) <- targets fr2 (nv :: prev1) ts';
        Ok (c1 ++ c2 ++ c3, fr3, ls)
    end.

  (* expr: the code emitted when the expression has been read *)
  Definition expr (fr : nat) (e : exp) : list instr * nat * xd :=
    match e with
    | ELoc r => ([], fr, XLoc r)
    | ECst k => ([], fr, XK k)
    | ERel i => ([], fr, XRel i)
    | ENon i => ([IExpr fr i fr], S fr, XNon fr)
    | ECall i => ([], S fr, XCall fr i)
    | EDots i => ([], fr, XDots i)
    end.

  (* lparser.c:1393-1402 *)
  Fixpoint explist (fr : nat) (e : exp) (es : list exp) : outcome (list instr * nat * xd) :=
    let '(c, fr1, x) := expr fr e in
    match es with
    | [] => Ok (c, fr1, x)
    | e' :: es' =>
        do '(c2, fr2) <- exp2nextreg fr1 x;
        do '(c3, fr3, y) <- explist fr2 e' es';
        Ok (c ++ c2 ++ c3, fr3, y)
    end.

  (* lparser.c:750-770 *)
  Definition adjust_assign (fr nvars nexps : nat) (x : xd) : outcome (list instr * nat) :=
    do '(c, fr1) <-
      match x with
      | XCall b i =>                         (* luaK_setreturns, lcode.c:527-540 *)
          let extra := nvars + 1 - nexps in
          Ok ([IMulti b i extra], if 1 <? extra then fr + (extra - 1) else fr)
      | XDots i =>
          let extra := nvars + 1 - nexps in
          let fr1 := S fr in
          Ok ([IMulti fr i extra], if 1 <? extra then fr1 + (extra - 1) else fr1)
      | _ =>
          do '(c, fr1) <- exp2nextreg fr x;
          if nexps <? nvars then
            let extra := nvars - nexps in
            Ok (c ++ [ILoadnil fr1 extra], fr1 + extra)
          else Ok (c, fr1)
      end;
    Ok (c, if nvars <? nexps then fr1 - (nexps - nvars) else fr1).

  (* lparser.c:1923-1924 on return from each recursive call *)
  Fixpoint stores (fr : nat) (ls : list lhs) : outcome (list instr * nat) :=
    match ls with
    | [] => Ok ([], fr)
    | v :: ls' =>
        do '(c1, fr1) <- storevar fr v (XNon (fr - 1));
        do '(c2, fr2) <- stores fr1 ls';
        Ok (c1 ++ c2, fr2)
    end.

  (* lparser.c:1892-1927 with the first target already read by exprstat *)
  Definition assignment (fr : nat) (ts : list target) (e : exp) (es : list exp)
    : outcome (list instr * nat) :=
    do '(c1, fr1, ls) <- targets fr [] ts;
    do '(c2, fr2, x) <- explist fr1 e es;
    let nvars := length ts in
    let nexps := S (length es) in
    if nexps =? nvars then
      match ls with
      | [] => UB
      | v :: ls' =>
          let '(c3, x1) := setoneret fr2 x in
          do '(c4, fr3) <- storevar fr2 v x1;
          do '(c5, fr4) <- stores fr3 ls';
          Ok (c1 ++ c2 ++ c3 ++ c4 ++ c5, fr4)
      end
    else
      do '(c3, fr3) <- adjust_assign fr2 nvars nexps x;
      do '(c4, fr4) <- stores fr3 ls;
      Ok (c1 ++ c2 ++ c3 ++ c4, fr4).

  (* ----- what the code does (lvm.c: OP_MOVE, OP_LOADK, OP_LOADNIL,
     OP_GETUPVAL, OP_SETUPVAL, OP_SETTABLE, OP_SETTABUP) ----- *)

  Record state := St { vars : env; tmps : nat -> V }.

  Fixpoint setnth (l : list V) (n : nat) (v : V) : list V :=
    match l, n with
    | [], _ => []
    | _ :: l', 0 => v :: l'
    | x :: l', S n' => x :: setnth l' n' v
    end.

  Definition setloc (e : env) (r : nat) (v : V) : env := Env (setnth (locs e) r v) (ups e) (wld e).
  Definition setup (e : env) (u : nat) (v : V) : env := Env (locs e) (setnth (ups e) u v) (wld e).

  Definition rd (s : state) (r : nat) : V :=
    if r <? nact then nth r (locs (vars s)) nilv else tmps s r.

  Definition wr (s : state) (r : nat) (v : V) : state :=
    if r <? nact then St (setloc (vars s) r v) (tmps s)
    else St (vars s) (fun q => if q =? r then v else tmps s q).

  Definition rdk (s : state) (o : rk) : V :=
    match o with RReg r => rd s r | RKst k => kval k end.

  Fixpoint wrs (s : state) (r : nat) (vs : list V) : state :=
    match vs with
    | [] => s
    | v :: vs' => wrs (wr s r v) (S r) vs'
    end.

  (* n values: missing ones are nil, surplus ones dropped *)
  Definition take (n : nat) (vs : list V) : list V := firstn n (vs ++ repeat nilv n).

  Definition scratch (s : state) (e : env) (fr : nat) : state :=
    St e (fun q => if q <? fr then tmps s q else junk q).

  Definition exec1 (i : instr) (s : state) : outcome state :=
    match i with
    | IMove a b => Ok (wr s a (rd s b))
    | IGetup a u => Ok (wr s a (nth u (ups (vars s)) nilv))
    | ISetup a u => Ok (St (setup (vars s) u (rd s a)) (tmps s))
    | ILoadk a k => Ok (wr s a (kval k))
    | ILoadnil a n => Ok (wrs s a (repeat nilv n))
    | IExpr a i fr =>
        do '(v, e) <- ev i (vars s);
        Ok (wr (scratch s e fr) a v)
    | IMulti a i n =>
        do '(vs, e) <- evm i (vars s);
        Ok (wrs (if a <? nact then St e (tmps s) else scratch s e a) a (take n vs))
    | ISettable t idx v =>
        do e <- settable (vars s) (rd s t) (rdk s idx) (rdk s v);
        Ok (St e (tmps s))
    | ISettabup u idx v =>
        do e <- settable (vars s) (nth u (ups (vars s)) nilv) (rdk s idx) (rdk s v);
        Ok (St e (tmps s))
    end.

  Fixpoint exec (c : list instr) (s : state) : outcome state :=
    match c with
    | [] => Ok s
    | i :: c' => do s1 <- exec1 i s; exec c' s1
    end.
End M.
