(* Coroutines: creating, resuming, yielding and asking for the status.

   Modelled, from /repo/src:
   - lcorolib.c:21-26 getco, lcorolib.c:28-53 auxresume, lcorolib.c:56-70
     luaB_coresume, lcorolib.c:73-92 luaB_auxwrap, lcorolib.c:95-102
     luaB_cocreate, lcorolib.c:112-114 luaB_yield, lcorolib.c:117-141
     luaB_costatus, lcorolib.c:144-147 luaB_yieldable, lcorolib.c:150-154
     luaB_corunning
   - ldo.c:713-719 resume_error, ldo.c:729-755 resume, ldo.c:758-793 lua_resume,
     ldo.c:654-664 unroll, ldo.c:800-825 lua_yieldk
   - lapi.c:123-137 lua_xmove, lstate.c:325-345 lua_resetthread

   Simplified:
   - the stack of a thread is the list of its frames, the current one first; a
     frame is the list of the values between its function and the next frame's.
     The frame of base_ci is the last one.  A function that is being called is
     the last value of its caller's frame.
   - Lua code is a tree: between the calls of the coroutine library a function
     does anything with its registers, which it states when it calls
     ([loc]), and goes on with what it finds there afterwards.
   - stack size limits, hooks, yields from C functions with continuations, pcall
     inside coroutines and pending deferred functions (C37) are left out. *)

Require Import Verif.Base.
From Coq Require Import List Arith Bool.
Import ListNotations.
Local Open Scope outcome_scope.
Local Open Scope nat_scope.

Inductive msg := MDead | MNonsuspended | MCstack | MOutside | MThread
  | MSRunning | MSSuspended | MSNormal | MSDead.

Inductive value := Nil | Bool (b : bool) | Str (m : msg) | Thr (n : nat) | Fun (n : nat) | Dat (n : nat).

(* a Lua function between its calls of the coroutine library; [loc] are its
   registers at the call, [w] the number of results it wants (None: all) *)
Inductive prog :=
| Ret (vs : list value)
| Throw (v : value)
| Yield (loc vs : list value) (w : option nat) (k : list value -> prog)
| Resume (loc : list value) (co : nat) (vs : list value) (w : option nat) (k : list value -> prog)
| Wrapped (loc : list value) (co : nat) (vs : list value) (w : option nat) (k : list value -> prog)
| Status (loc : list value) (co : nat) (k : list value -> prog)
| Create (loc : list value) (f : nat) (k : list value -> prog)
| Running (loc : list value) (k : list value -> prog)
| Yieldable (loc : list value) (k : list value -> prog).

(* LUA_OK, LUA_YIELD, an error status *)
Inductive lstatus := SOk | SYield | SErr.

(* lua_State: status, ci and stack, nny, nCcalls; and the code to go on with
   after a yield with the number of results its call wants (ci->nresults and the
   saved pc of the Lua function) *)
Record thread := T { status : lstatus; frames : list (list value); nny : nat; ncc : nat;
  wanted : option nat; cont : list value -> prog }.

Record global := G { count : nat; th : nat -> thread }.

Definition set (g : global) (i : nat) (t : thread) : global :=
  G (count g) (fun j => if j =? i then t else th g j).

Definition set_status (t : thread) (s : lstatus) : thread := T s (frames t) (nny t) (ncc t) (wanted t) (cont t).
Definition set_frames (t : thread) (f : list (list value)) : thread := T (status t) f (nny t) (ncc t) (wanted t) (cont t).
Definition set_nny (t : thread) (n : nat) : thread := T (status t) (frames t) n (ncc t) (wanted t) (cont t).
Definition set_ncc (t : thread) (n : nat) : thread := T (status t) (frames t) (nny t) n (wanted t) (cont t).
Definition set_cont (t : thread) (w : option nat) (k : list value -> prog) : thread :=
  T (status t) (frames t) (nny t) (ncc t) w k.

(* values on top of the current frame *)
Definition push (t : thread) (vs : list value) : thread :=
  match frames t with
  | [] => t
  | f :: fs => set_frames t ((f ++ vs) :: fs)
  end.

Definition pop (t : thread) (n : nat) : thread :=
  match frames t with
  | [] => t
  | f :: fs => set_frames t (firstn (length f - n) f :: fs)
  end.

Definition top (t : thread) (n : nat) : list value :=
  match frames t with
  | [] => []
  | f :: _ => skipn (length f - n) f
  end.

Definition gettop (t : thread) : nat := match frames t with [] => 0 | f :: _ => length f end.

(* a call: function and arguments are on top; the arguments become the frame *)
Definition call (t : thread) (f : value) (args : list value) : thread :=
  let t1 := push t [f] in set_frames t1 (args :: frames t1).

Definition adjust (w : option nat) (vs : list value) : list value :=
  match w with
  | None => vs
  | Some n => firstn n (vs ++ repeat Nil n)
  end.

(* luaD_poscall: the results replace the function in the caller's frame *)
Definition poscall (t : thread) (w : option nat) (vs : list value) : thread :=
  match frames t with
  | _ :: c :: fs => set_frames t ((removelast c ++ adjust w vs) :: fs)
  | _ => t
  end.

(* lapi.c:123-137 *)
Definition lua_xmove (g : global) (from to n : nat) : global :=
  if from =? to then g
  else
    let vs := top (th g from) n in
    let g1 := set g from (pop (th g from) n) in
    set g1 to (push (th g1 to) vs).

(* ldo.c:713-719 *)
Definition resume_error (g : global) (co : nat) (m : msg) (n : nat) : global :=
  set g co (push (pop (th g co) n) [Str m]).

Inductive res := RDone | RYield | RThrow.

Section M.
  Variable bodies : nat -> list value -> prog.    (* the functions of the program *)
  Variable maxcc : nat.                           (* LUAI_MAXCCALLS *)
  Variable where_ : value -> value.               (* luaL_where before string errors, lcorolib.c:84-88 *)

  (* ldo.c:729-755 resume with luaV_execute = ex *)
  Definition resume (ex : nat -> prog -> global -> outcome (res * global)) (co n : nat) (g : global)
    : outcome (res * global) :=
    let t := th g co in
    match status t with
    | SOk =>
        let args := top t n in
        let t1 := pop t n in                      (* firstArg - 1 is the function *)
        match top t1 1 with
        | [Fun b] => ex co (bodies b args) (set g co (set_frames t1 (args :: frames t1)))
        | _ => UB
        end
    | SYield =>
        let t1 := set_status t SOk in
        let t2 := poscall t1 (wanted t) (top t n) in
        ex co (cont t (match frames t2 with f :: _ => f | [] => [] end)) (set g co t2)
    | SErr => UB
    end.

  (* ldo.c:758-793; true: LUA_OK or LUA_YIELD *)
  Definition lua_resume (ex : nat -> prog -> global -> outcome (res * global)) (from co n : nat) (g : global)
    : outcome (bool * global) :=
    let t := th g co in
    let oldnny := nny t in
    match status t, frames t with
    | SOk, _ :: _ :: _ => Ok (false, resume_error g co MNonsuspended n)
    | SErr, _ => Ok (false, resume_error g co MDead n)
    | _, _ =>
        let d := S (ncc (th g from)) in
        let g1 := set g co (set_ncc t d) in
        if maxcc <=? d then Ok (false, resume_error g1 co MCstack n)
        else
          let g2 := set g1 co (set_nny (th g1 co) 0) in
          do '(r, g3) <- resume ex co n g2;
          let finish g := set g co (set_ncc (set_nny (th g co) oldnny) (ncc (th g co) - 1)) in
          match r with
          | RThrow =>
              (* luaD_seterrorobj(L, status, L->top) *)
              let t3 := th g3 co in
              Ok (false, finish (set g3 co (push (set_status t3 SErr) (top t3 1))))
          | _ => Ok (true, finish g3)
          end
    end.

  (* lcorolib.c:28-53; the number of results on top of L, or None and a message *)
  Definition auxresume (ex : nat -> prog -> global -> outcome (res * global)) (L co narg : nat) (g : global)
    : outcome (option nat * global) :=
    match status (th g co), gettop (th g co) with
    | SOk, 0 => Ok (None, set g L (push (th g L) [Str MDead]))
    | _, _ =>
        let g1 := lua_xmove g L co narg in
        do '(ok, g2) <- lua_resume ex L co narg g1;
        if ok then
          let nres := gettop (th g2 co) in
          Ok (Some nres, lua_xmove g2 co L nres)
        else Ok (None, lua_xmove g2 co L 1)
    end.

  (* lstate.c:325-345 without pending deferred functions *)
  Definition lua_resetthread (t : thread) : thread := set_status (set_frames t [[]]) SOk.

  (* lcorolib.c:117-141 *)
  Definition costatus (L co : nat) (g : global) : msg :=
    if L =? co then MSRunning
    else match status (th g co) with
      | SYield => MSSuspended
      | SOk => match frames (th g co) with
               | _ :: _ :: _ => MSNormal          (* lua_getstack(co, 0, ...) > 0 *)
               | _ => if gettop (th g co) =? 0 then MSDead else MSSuspended
               end
      | SErr => MSDead
      end.

  Definition lib : value := Fun 0.                (* a function of the library *)

  (* the current frame gets these registers *)
  Definition regs (t : thread) (loc : list value) : thread :=
    match frames t with [] => t | _ :: fs => set_frames t (loc :: fs) end.

  Definition frame (t : thread) : list value := match frames t with [] => [] | f :: _ => f end.

  (* a C function throws: the error object is on top *)
  Definition throw (g : global) (i : nat) (v : value) : outcome (res * global) :=
    Ok (RThrow, set g i (push (th g i) [v])).

  (* thread i runs the code p until it returns, yields or throws *)
  Fixpoint exec (fuel : nat) (i : nat) (p : prog) (g : global) : outcome (res * global) :=
    match fuel with
    | O => OutOfFuel
    | S fuel =>
        let t := th g i in
        match p with
        | Ret vs => Ok (RDone, set g i (poscall t None vs))
        | Throw v => throw g i v
        | Yield loc vs w k =>
            let t1 := call (regs t loc) lib vs in
            (* luaB_yield: lua_yield(L, lua_gettop(L)), ldo.c:800-825 *)
            if 0 <? nny t1 then throw (set g i t1) i (Str MOutside)
            else Ok (RYield, set g i (set_cont (set_status t1 SYield) w k))
        | Resume loc co vs w k =>
            if count g <=? co then throw (set g i (call (regs t loc) lib vs)) i (Str MThread)
            else
              let g1 := set g i (call (regs t loc) lib (Thr co :: vs)) in
              do '(r, g2) <- auxresume (exec fuel) i co (gettop (th g1 i) - 1) g1;
              let t2 := th g2 i in
              let results := match r with
                | None => Bool false :: top t2 1
                | Some n => Bool true :: top t2 n
                end in
              let t3 := poscall t2 w results in
              exec fuel i (k (frame t3)) (set g2 i t3)
        | Wrapped loc co vs w k =>
            if count g <=? co then throw (set g i (call (regs t loc) lib vs)) i (Str MThread)
            else
              let g1 := set g i (call (regs t loc) lib vs) in
              do '(r, g2) <- auxresume (exec fuel) i co (gettop (th g1 i)) g1;
              match r with
              | None =>
                  let g3 := match status (th g2 co) with
                    | SErr => set g2 co (lua_resetthread (th g2 co))
                    | _ => g2
                    end in
                  match top (th g3 i) 1 with
                  | [v] => throw g3 i (where_ v)
                  | _ => UB
                  end
              | Some n =>
                  let t2 := th g2 i in
                  let t3 := poscall t2 w (top t2 n) in
                  exec fuel i (k (frame t3)) (set g2 i t3)
              end
        | Status loc co k =>
            if count g <=? co then throw (set g i (call (regs t loc) lib [])) i (Str MThread)
            else
              let t1 := call (regs t loc) lib [Thr co] in
              let t3 := poscall t1 None [Str (costatus i co (set g i t1))] in
              exec fuel i (k (frame t3)) (set g i t3)
        | Create loc f k =>
            let t1 := call (regs t loc) lib [Fun f] in
            let n := count g in
            let nt := T SOk [[Fun f]] 1 0 None (fun _ => Ret []) in
            let g1 := set (G (S n) (th g)) n nt in
            let t3 := poscall t1 None [Thr n] in
            exec fuel i (k (frame t3)) (set g1 i t3)
        | Running loc k =>
            let t1 := call (regs t loc) lib [] in
            let t3 := poscall t1 None [Thr i; Bool (i =? 0)] in
            exec fuel i (k (frame t3)) (set g i t3)
        | Yieldable loc k =>
            let t1 := call (regs t loc) lib [] in
            let t3 := poscall t1 None [Bool (nny t1 =? 0)] in
            exec fuel i (k (frame t3)) (set g i t3)
        end
    end.

  (* the main thread (lstate.c lua_newstate: nny = 1) about to run a function *)
  Definition start (d : nat) : global :=
    G 1 (fun _ => T SOk [[]; [Fun 0]] 1 d None (fun _ => Ret [])).
End M.
