(* The calling convention: ldo.c adjust_varargs, tryfuncTM, moveresults, luaD_poscall, luaD_precall;
   lvm.c OP_CALL, OP_TAILCALL, OP_RETURN, raviV_op_vararg.
   Left out: the growth of the stack, hooks, compiled (JIT) functions, the closing of upvalues (C36). *)
Require Import ZArith List Bool Arith.
From Verif Require Import Base.
Import ListNotations.
Local Open Scope nat_scope.
Local Open Scope outcome_scope.

Section machine.
Variable V : Type.
Variable nil : V.
(* what a value is when it is called: a Lua function with its numparams, is_vararg and maxstacksize; a C
   function; a fast C function (RAVI_TFCF) of one number, None if the argument is not one; something else
   with its __call metamethod, which has to be a function itself (ldo.c:331-343) *)
Definition stack := nat -> V.
Inductive kind :=
| KLua (np : nat) (va : bool) (fsize : nat)
| KC
| KFast (f : V -> option V)
| KOther (tm : option V).
Variable kind_of : V -> kind.
(* a C function gets the stack, its func and the top; it returns the stack, the top and the number of results *)
Variable crun : V -> stack -> nat -> nat -> stack * nat * nat.

(* lstate.h CallInfo *)
Record ci := mkCI { cfunc : nat; cbase : nat; ctop : nat; cnres : Z }.
Record state := mkSt { stk : stack; top : nat; cis : list ci }.
Definition upd (s : stack) (i : nat) (v : V) : stack := fun j => if j =? i then v else s j.
Definition LUA_MULTRET : Z := (-1)%Z.

(* for (; i < ..; i++) body, n times *)
Fixpoint for_up (n i : nat) (body : nat -> stack -> stack) (s : stack) : stack :=
  match n with O => s | S n => for_up n (S i) body (body i s) end.
(* setobjs2s(L, dst + i, src + i) *)
Definition copy (dst src : nat) (i : nat) (s : stack) : stack := upd s (dst + i) (s (src + i)).
(* setnilvalue(dst + i) *)
Definition setnil (dst : nat) (i : nat) (s : stack) : stack := upd s (dst + i) nil.

(* ldo.c:309-324 adjust_varargs; returns the stack, the top and the base *)
Definition adjust_varargs (s : stack) (tp np actual : nat) : stack * nat * nat :=
  let fixed := tp - actual in
  let base := tp in
  let m := Nat.min np actual in
  let s := for_up m 0 (fun i s => upd (upd s (base + i) (s (fixed + i))) (fixed + i) nil) s in
  let s := for_up (np - m) m (setnil base) s in
  (s, base + np, base).
(* ldo.c:331-343 tryfuncTM, without the test that the metamethod is a function *)
Fixpoint open_hole (n p : nat) (s : stack) : stack :=
  match n with O => s | S n => open_hole n (p - 1) (upd s p (s (p - 1))) end.
Definition tryfuncTM (s : stack) (func tp : nat) (tm : V) : stack * nat := (upd (open_hole (tp - func) tp s) func tm, S tp).
(* ldo.c:352-386 moveresults: the stack, the top and whether the number of results was fixed *)
Definition moveresults (s : stack) (first res nres : nat) (wanted : Z) : stack * nat * bool :=
  if Z.eqb wanted 0 then (s, res, true)
  else if Z.eqb wanted 1 then (upd s res (if nres =? 0 then nil else s first), res + 1, true)
  else if Z.eqb wanted LUA_MULTRET then (for_up nres 0 (copy res first) s, res + nres, false)
  else
    let w := Z.to_nat wanted in
    if w <=? nres then (for_up w 0 (copy res first) s, res + w, true)
    else (for_up (w - nres) nres (setnil res) (for_up nres 0 (copy res first) s), res + w, true).
(* ldo.c:392-409 luaD_poscall *)
Definition poscall (st : state) (first nres : nat) : outcome (state * bool) :=
  match cis st with
  | [] => UB
  | c :: cs =>
    let '(s, tp, fixed) := moveresults (stk st) first (cfunc c) nres (cnres c) in
    Ok (mkSt s tp cs, fixed)
  end.
(* ldo.c:431-574 luaD_precall for a function; returns 0 for a Lua function, else 1 *)
Inductive entered := ELua | EC.
Definition precall_fun (st : state) (func : nat) (nresults : Z) : outcome (state * entered) :=
  match kind_of (stk st func) with
  | KC =>
    let st := mkSt (stk st) (top st) (mkCI func 0 (top st + 20) nresults :: cis st) in
    let '(s, tp, n) := crun (stk st func) (stk st) func (top st) in
    do '(st, _) <- poscall (mkSt s tp (cis st)) (tp - n) n;
    Ok (st, EC)
  | KLua np va fsize =>
    let n := top st - func - 1 in
    let '(s, tp, base) :=
      if va then adjust_varargs (stk st) (top st) np n
      else (for_up (np - n) 0 (setnil (top st)) (stk st), top st + (np - n), func + 1) in
    Ok (mkSt s (base + fsize) (mkCI func base (base + fsize) nresults :: cis st), ELua)
  | KFast f =>
    if top st - func - 1 =? 1 then
      match f (stk st (func + 1)) with
      | Some v => Ok (mkSt (upd (stk st) func v) (func + 1) (cis st), EC)
      | None => Err EType
      end
    else Err EType
  | KOther _ => UB
  end.
Definition precall (st : state) (func : nat) (nresults : Z) : outcome (state * entered) :=
  match kind_of (stk st func) with
  | KOther None => Err EType
  | KOther (Some tm) =>
    let '(s, tp) := tryfuncTM (stk st) func (top st) tm in
    precall_fun (mkSt s tp (cis st)) func nresults
  | _ => precall_fun st func nresults
  end.

(* the top of the frame that goes on (L->top = ci->top) *)
Definition restore_top (st : state) : state :=
  match cis st with c :: _ => mkSt (stk st) (ctop c) (cis st) | [] => st end.
(* lvm.c:1770-1801 OP_CALL A B C; the registers begin at base *)
Definition op_call (st : state) (a b c : nat) : outcome (state * entered) :=
  match cis st with
  | [] => UB
  | f :: _ =>
    let ra := cbase f + a in
    let nresults := (Z.of_nat c - 1)%Z in
    let st := if b =? 0 then st else mkSt (stk st) (ra + b) (cis st) in
    do '(st, e) <- precall st ra nresults;
    match e with
    | EC => Ok (if Z.leb 0 nresults then restore_top st else st, EC)
    | ELua => Ok (st, ELua)
    end
  end.
(* lvm.c:1802-1841 OP_TAILCALL A B; what follows a call of a C function is OP_RETURN A 0 *)
Definition op_tailcall (st : state) (a b : nat) : outcome (state * entered) :=
  match cis st with
  | [] => UB
  | f :: _ =>
    let ra := cbase f + a in
    let st := if b =? 0 then st else mkSt (stk st) (ra + b) (cis st) in
    do '(st, e) <- precall st ra LUA_MULTRET;
    match e with
    | EC => Ok (st, EC)
    | ELua =>
      match cis st with
      | nci :: oci :: cs =>
        let nfunc := cfunc nci in
        let ofunc := cfunc oci in
        let np := match kind_of (stk st nfunc) with KLua np _ _ => np | _ => 0 end in
        let lim := cbase nci + np in
        let s := for_up (lim - nfunc) 0 (copy ofunc nfunc) (stk st) in
        let tp := ofunc + (top st - nfunc) in
        Ok (mkSt s tp (mkCI ofunc (ofunc + (cbase nci - nfunc)) tp (cnres oci) :: cs), ELua)
      | _ => UB
      end
    end
  end.
(* lvm.c:1842-1885 OP_RETURN A B, in a function called by OP_CALL of the same luaV_execute *)
Definition op_return (st : state) (a b : nat) : outcome state :=
  match cis st with
  | [] => UB
  | f :: _ =>
    let ra := cbase f + a in
    let nres := if b =? 0 then top st - ra else b - 1 in
    do '(st, fixed) <- poscall st ra nres;
    Ok (if fixed : bool then restore_top st else st)
  end.
(* lvm.c:2948-2969 raviV_op_vararg A B *)
Definition op_vararg (st : state) (a b : nat) : outcome state :=
  match cis st with
  | [] => UB
  | f :: _ =>
    let np := match kind_of (stk st (cfunc f)) with KLua np _ _ => np | _ => 0 end in
    let n := cbase f - cfunc f - np - 1 in
    let ra := cbase f + a in
    let '(b, tp) := if b =? 0 then (n, ra + n) else (b - 1, top st) in
    let m := Nat.min b n in
    let s := for_up m 0 (copy ra (cbase f - n)) (stk st) in
    let s := for_up (b - m) m (setnil ra) s in
    Ok (mkSt s tp (cis st))
  end.
End machine.
