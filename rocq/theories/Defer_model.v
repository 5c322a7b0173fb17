(* Model of deferred functions: the defer statement of Ravi, lfunc.c:100-178, ldo.c:97-160, 673-705, 831-856,
   lvm.c OP_RAVI_DEFER, OP_JMP, OP_RETURN, OP_TAILCALL. One thread. A stack slot is an index; a pointer kept in a
   C variable also says when it was taken, since the stack may move (luaD_reallocstack, ldo.c:194-206). *)
Require Import ZArith List Bool.
From Verif Require Import Base.
Import ListNotations.
Open Scope Z_scope.

Inductive value := VNil | VFun (k : nat) | VData (z : Z).
Definition ttisfunction (v : value) : bool := match v with VFun _ => true | _ => false end.
Definition MEMERRMSG : value := VData (-1).
Definition ERRERRMSG : value := VData (-2).
(* lua.h:60-66, lfunc.h *)
Definition LUA_OK : Z := 0.
Definition LUA_ERRMEM : Z := 4.
Definition LUA_ERRERR : Z := 6.
Definition NOCLOSINGMETH : Z := -1.
Definition CLOSEPROTECT : Z := -2.

(* what an activation of a compiled function does, as far as variables and control are concerned. Registers 0..n-1
   of the frame hold the active variables, the others are temporaries. A call says how far above them the frame of
   the called function starts; size is the number of registers of the called function. Programs may act on values
   (Get), on results (Call) and on the outcome of pcall. *)
Inductive code :=
| Ret (vs : list value) (multi : bool)              (* OP_RETURN; multi: L->top ends the results *)
| Throw (status : Z) (v : value)
| Print (z : Z) (k : code)                          (* anything that can be seen from outside *)
| Local (v : value) (k : code)                      (* a new local variable *)
| SetL (i : nat) (v : value) (k : code)
| Get (i : nat) (k : value -> code)
| Capture (i : nat) (k : code)                      (* a closure captures variable i *)
| Defer (size : Z) (f k : code)                     (* OP_RAVI_DEFER, OP_CLOSURE *)
| DeferErr (status : Z) (v : value)                 (* the same when OP_CLOSURE raises an error *)
| Leave (close : bool) (lev : nat) (k : code)       (* OP_JMP out of a block that began with lev variables *)
| Call (d size : Z) (f : code) (k : list value -> code)
| PCall (size : Z) (f : code) (k : list value + value -> code)
| Tail (d size : Z) (f : code).                     (* OP_TAILCALL *)

Inductive event := Reg (k : nat) | Run (k : nat) (arg : value) | Out (z : Z).
Record upv := UpV { u_idx : Z; u_flags : bool; u_ref : Z }.
Record st := St { s_stk : Z -> value; s_open : list upv; s_top : Z; s_gen : Z; s_clk : Z; s_funs : list (Z * code); s_log : list event }.
Definition set_stk (s : st) (i : Z) (v : value) : st := St (fun j => if j =? i then v else s_stk s j) (s_open s) (s_top s) (s_gen s) (s_clk s) (s_funs s) (s_log s).
Definition set_open (s : st) (l : list upv) : st := St (s_stk s) l (s_top s) (s_gen s) (s_clk s) (s_funs s) (s_log s).
Definition set_top (s : st) (t : Z) : st := St (s_stk s) (s_open s) t (s_gen s) (s_clk s) (s_funs s) (s_log s).
Definition add_fun (s : st) (f : Z * code) : st := St (s_stk s) (s_open s) (s_top s) (s_gen s) (s_clk s) (s_funs s ++ [f]) (s_log s).
Definition add_log (s : st) (e : event) : st := St (s_stk s) (s_open s) (s_top s) (s_gen s) (s_clk s) (s_funs s) (s_log s ++ [e]).
Fixpoint set_vals (s : st) (i : Z) (vs : list value) : st := match vs with [] => s | v :: vs => set_vals (set_stk s i v) (i + 1) vs end.
Definition get_vals (s : st) (i : Z) (n : nat) : list value := map (fun j => s_stk s (i + Z.of_nat j)) (seq 0 n).

(* a pointer into the stack: when it was taken, and the offset *)
Definition ptr : Type := (Z * Z)%type.
Definition restorestack (s : st) (off : Z) : ptr := (s_gen s, off).
Definition wr (s : st) (p : ptr) (v : value) : outcome st := if fst p =? s_gen s then Ok (set_stk s (snd p) v) else UB.
(* ldo.c:97-119 *)
Definition luaD_seterrorobj (s : st) (errcode : Z) (oldtop : ptr) : outcome st :=
  bind (wr s oldtop (if errcode =? LUA_ERRMEM then MEMERRMSG else if errcode =? LUA_ERRERR then ERRERRMSG else if errcode =? CLOSEPROTECT then VNil else s_stk s (s_top s - 1))) (fun s =>
  Ok (set_top s (snd oldtop + 1))).
(* luaG_errormsg pushes the message (ldebug.c), luaD_throw for the other two does not *)
Definition raise (s : st) (status : Z) (v : value) : st :=
  if (status =? LUA_ERRMEM) || (status =? LUA_ERRERR) then s else set_top (set_stk s (s_top s) v) (s_top s + 1).

(* lfunc.c:64-97; incref is done by the caller, lvm.c:982-1001 *)
Fixpoint findupval (l : list upv) (level : Z) (f : upv -> upv) : list upv :=
  match l with
  | [] => [f (UpV level false 0)]
  | p :: l' => if level <=? u_idx p then if (u_idx p =? level) && negb (u_flags p) then f p :: l' else p :: findupval l' level f else f (UpV level false 0) :: l
  end.
Definition incref (u : upv) : upv := UpV (u_idx u) (u_flags u) (u_ref u + 1).
Definition mark_deferred (u : upv) : upv := UpV (u_idx u) true (u_ref u).
(* lvm.c:2609-2614 *)
Definition op_defer (s : st) (ra : Z) : st := set_stk (set_open s (findupval (s_open s) ra mark_deferred)) ra VNil.

Inductive cres := CDone (status : Z) | CThrow (status : Z).
Inductive res := RRet (vs : list value) | RErr (status : Z).
(* lfunc.c:101-104: the function that luaD_callnoyield finds in slot func *)
Definition calldeferred (s : st) (func : Z) : outcome (Z * code * st) :=
  match s_stk s func with
  | VFun k => match nth_error (s_funs s) k with Some (sz, f) => Ok (sz, f, add_log s (Run k (s_stk s (func + 1)))) | None => UB end
  | _ => Err EType
  end.
Section EXEC.
(* whether the stack moves at the n-th place where it can: luaD_checkstack, luaD_shrinkstack *)
Variable moves : Z -> bool.
Definition may_move (s : st) : st := St (s_stk s) (s_open s) (s_top s) (if moves (s_clk s) then s_gen s + 1 else s_gen s) (s_clk s + 1) (s_funs s) (s_log s).
Fixpoint exec (fuel : nat) (s : st) (base : Z) (n : nat) (size : Z) (c : code) {struct fuel} : outcome (res * st) :=
  match fuel with O => OutOfFuel | S fuel =>
  let r0 := base + Z.of_nat n in                                    (* the first free register *)
  match c with
  | Ret vs multi =>                                                 (* lvm.c:1844-1858 *)
    let s := set_vals s r0 vs in
    let s := if multi then set_top s (r0 + Z.of_nat (length vs)) else s in
    bind (luaF_close fuel s (restorestack s base) LUA_OK) (fun '(r, s) =>
    match r with
    | CThrow st => Ok (RErr st, s)
    | CDone _ => Ok (RRet (get_vals s r0 (if multi then Z.to_nat (s_top s - r0) else length vs)), s)
    end)
  | Throw status v => Ok (RErr status, raise s status v)
  | Print z k => exec fuel (add_log s (Out z)) base n size k
  | Local v k => exec fuel (set_stk s r0 v) base (S n) size k
  | SetL i v k => exec fuel (set_stk s (base + Z.of_nat i) v) base n size k
  | Get i k => exec fuel s base n size (k (s_stk s (base + Z.of_nat i)))
  | Capture i k => exec fuel (set_open s (findupval (s_open s) (base + Z.of_nat i) incref)) base n size k
  | Defer sz f k =>
    let s := op_defer s r0 in
    let s := add_log (add_fun (set_stk s r0 (VFun (length (s_funs s)))) (sz, f)) (Reg (length (s_funs s))) in
    exec fuel s base (S n) size k
  | DeferErr status v => Ok (RErr status, raise (op_defer s r0) status v)
  | Leave close lev k =>                                            (* lvm.c:1094-1101 *)
    if close then
      bind (luaF_close fuel s (restorestack s (base + Z.of_nat lev)) LUA_OK) (fun '(r, s) =>
      match r with
      | CThrow st => Ok (RErr st, s)
      | CDone _ => exec fuel s base lev size k
      end)
    else exec fuel s base lev size k
  | Call d sz f k =>
    bind (docall fuel s (r0 + d - 1) sz f) (fun '(r, s) =>
    match r with
    | RErr st => Ok (RErr st, s)
    | RRet vs => exec fuel (set_top s (base + size)) base n size (k vs)  (* the results go to temporaries *)
    end)
  | PCall sz f k =>                                                 (* lbaselib.c luaB_pcall at r0: true at r0+1, the function at r0+2 *)
    bind (luaD_pcall fuel (set_stk s (r0 + 1) (VData 1)) (r0 + 2) sz f (r0 + 2)) (fun '(r, s) =>
    let x := match r with RRet vs => inl vs | RErr _ => inr (s_stk s (s_top s - 1)) end in
    exec fuel (set_top s (base + size)) base n size (k x))
  | Tail d sz f =>                                                  (* lvm.c:1801-1842: precall, close, move the frame *)
    let s := may_move (set_top s (r0 + d)) in
    bind (luaF_close fuel s (restorestack s base) NOCLOSINGMETH) (fun '(r, s) =>
    match r with
    | CThrow st => Ok (RErr st, s)
    | CDone _ => exec fuel (set_top s (base + sz)) base 0 sz f
    end)
  end
  end
(* ldo.c luaD_precall and luaV_execute for a Lua function in slot func, without arguments *)
with docall (fuel : nat) (s : st) (func size : Z) (c : code) {struct fuel} : outcome (res * st) :=
  match fuel with O => OutOfFuel | S fuel =>
  exec fuel (set_top (may_move (set_top s (func + 1))) (func + 1 + size)) (func + 1) 0 size c
  end
(* lfunc.c:156-178 *)
with luaF_close (fuel : nat) (s : st) (level : ptr) (status : Z) {struct fuel} : outcome (cres * st) :=
  match fuel with O => OutOfFuel | S fuel =>
  match s_open s with
  | [] => Ok (CDone status, s)
  | uv :: l =>
    if negb (fst level =? s_gen s) then UB                          (* compared with a pointer into the old stack *)
    else if snd level <=? u_idx uv then
      let s := set_open s l in
      if (u_ref uv =? 0) && negb (status =? NOCLOSINGMETH) && u_flags uv && ttisfunction (s_stk s (u_idx uv)) then
        let levelrel := snd level in
        bind (calldeferredfunction fuel s (u_idx uv) status) (fun '(r, s) =>
        match r with
        | CThrow st => Ok (CThrow st, s)
        | CDone status => luaF_close fuel s (restorestack s levelrel) status
        end)
      else luaF_close fuel s level status                           (* freed, or its value moved into the upvalue *)
    else Ok (CDone status, s)
  end
  end
(* lfunc.c:125-154; the two calls *)
with calldeferredfunction (fuel : nat) (s : st) (uv status : Z) {struct fuel} : outcome (cres * st) :=
  match fuel with O => OutOfFuel | S fuel =>
  if status =? LUA_OK then
    let func := s_top s in
    let s := set_top (set_stk (set_stk s func (s_stk s uv)) (func + 1) VNil) (func + 2) in
    bind (calldeferred s func) (fun '(sz, f, s) =>
    bind (docall fuel s func sz f) (fun '(r, s) =>
    match r with
    | RErr st => Ok (CThrow st, s)
    | RRet _ => Ok (CDone LUA_OK, set_top s func)                  (* luaD_poscall, no results wanted *)
    end))
  else
    let level := uv + 1 in
    let oldtop := level + 1 in
    bind (luaD_seterrorobj s status (restorestack s level)) (fun s =>
    let func := s_top s in
    let s := set_top (set_stk (set_stk s func (s_stk s uv)) (func + 1) (s_stk s level)) (func + 2) in
    bind (calldeferred s func) (fun '(sz, f, s) =>
    bind (luaD_pcall fuel s func sz f oldtop) (fun '(r, s) =>
    match r with
    | RErr newstatus => if status =? CLOSEPROTECT then Ok (CDone newstatus, s) else Ok (CDone status, set_top s oldtop)
    | RRet _ => Ok (CDone status, set_top s oldtop)
    end)))
  end
(* ldo.c:831-856; errors leave the message at old_top *)
with luaD_pcall (fuel : nat) (s : st) (func size : Z) (c : code) (old_top : Z) {struct fuel} : outcome (res * st) :=
  match fuel with O => OutOfFuel | S fuel =>
  bind (docall fuel s func size c) (fun '(r, s) =>
  match r with
  | RRet vs => Ok (RRet vs, set_top s func)
  | RErr status =>
    let oldtop := restorestack s old_top in
    bind (luaF_close fuel s oldtop status) (fun '(r, s) =>
    match r with
    | CThrow _ => UB                                                (* there is no handler in luaD_pcall any more *)
    | CDone status =>
      let oldtop := restorestack s old_top in
      bind (luaD_seterrorobj s status oldtop) (fun s => Ok (RErr status, may_move s))
    end)
  end)
  end.
(* ldo.c:683-705, the error part of a pcall that was resumed; extra is the offset that luaD_pcall would have kept *)
Definition recover (fuel : nat) (s : st) (status extra : Z) : outcome st :=
  let oldtop := restorestack s extra in
  bind (luaF_close fuel s oldtop status) (fun '(_, s) =>
  bind (luaD_seterrorobj s status oldtop) (fun s => Ok (may_move s))).
(* lstate.c:322-345; the first slot is 0 *)
Definition lua_resetthread (fuel : nat) (s : st) : outcome (Z * st) :=
  let s := set_stk s 0 VNil in
  bind (luaF_close fuel s (restorestack s 0) CLOSEPROTECT) (fun '(r, s) =>
  match r with
  | CThrow _ => UB
  | CDone status =>
    if negb (status =? CLOSEPROTECT) then bind (luaD_seterrorobj s status (restorestack s 1)) (fun s => Ok (status, s))
    else Ok (LUA_OK, set_top s 1)
  end).
(* lstate.c:311-322 *)
Definition luaE_freethread (fuel : nat) (s : st) : outcome st := bind (luaF_close fuel s (restorestack s 0) NOCLOSINGMETH) (fun '(_, s) => Ok s).
(* ldo.c:760-798 lua_resume of a new coroutine whose function is in slot 1; an error ends it *)
Definition resume (fuel : nat) (s : st) (size : Z) (c : code) : outcome (res * st) := docall fuel s 1 size c.
End EXEC.
