(* Moving the stack of a thread: growing, shrinking and correcting the pointers.

   Modelled, from /repo/src:
   - ldo.c:173-186 correctstack, ldo.c:190 ERRORSTACKSIZE, ldo.c:192-203
     luaD_reallocstack, ldo.c:206-222 luaD_growstack, ldo.c:225-233 stackinuse,
     ldo.c:236-253 luaD_shrinkstack
   - ldo.h:23-28 luaD_checkstack
   - lapi.c:101-122 lua_checkstack
   - lstate.h:104 EXTRA_STACK, include/luaconf.h:754 LUAI_MAXSTACK

   Simplified:
   - addresses are counted in units of TValue; the memory contains only the stack.
   - the answer of the allocator is a parameter of each operation: None when there
     is no memory, else the new address of the block and what the part of it
     contains that was not copied.
   - freeing unused CallInfos (luaE_freeCI, luaE_shrinkCI) is left out. *)

Require Import Verif.Base.
From Coq Require Import ZArith List Bool.
Import ListNotations.
Local Open Scope Z_scope.
Local Open Scope outcome_scope.

Definition EXTRA_STACK : Z := 5.
Definition LUAI_MAXSTACK : Z := 1000000.
Definition ERRORSTACKSIZE : Z := LUAI_MAXSTACK + 200.

Section M.
  Variable V : Type.
  Variable nil : V.

  (* CallInfo; ci_u is the word that is u.l.base for a Lua function and u.c.k, the
     address of a continuation, for a C function (lstate.h:74-100, a union) *)
  Record callinfo := CI { ci_top : Z; ci_func : Z; is_lua : bool; ci_u : Z }.

  (* lua_State: L->ci and its predecessors are cis *)
  Record state := St { stack : Z; stacksize : Z; stack_last : Z; top : Z;
    openupval : list Z; cis : list callinfo; mem : Z -> V }.

  (* the stack slot at an address; None: outside of the block *)
  Definition get (s : state) (a : Z) : option V :=
    if (stack s <=? a) && (a <? stack s + stacksize s) then Some (mem s a) else None.

  Definition answer := option (Z * (Z -> V)).

  Inductive error := EOverflow | EErrErr | EMemory.

  (* int arithmetic *)
  Definition int (z : Z) : outcome Z :=
    if (-2147483648 <=? z) && (z <=? 2147483647) then Ok z else UB.

  (* setnilvalue(L->stack + lim) for n slots from a *)
  Fixpoint erase (m : Z -> V) (a : Z) (n : nat) : Z -> V :=
    match n with
    | O => m
    | S n' => erase (fun x => if x =? a then nil else m x) (a + 1) n'
    end.

  (* ldo.c:173-186 *)
  Definition correctstack (s : state) (oldstack : Z) : state :=
    let fix_ a := (a - oldstack) + stack s in
    St (stack s) (stacksize s) (stack_last s) (fix_ (top s)) (map fix_ (openupval s))
      (map (fun c => CI (fix_ (ci_top c)) (fix_ (ci_func c)) (is_lua c)
                        (if is_lua c then fix_ (ci_u c) else ci_u c)) (cis s)) (mem s).

  (* ldo.c:192-203; None: a memory error is thrown and nothing has changed *)
  Definition luaD_reallocstack (s : state) (newsize : Z) (ans : answer) : option state :=
    match ans with
    | None => None
    | Some (nb, junk) =>
        let oldstack := stack s in
        let lim := stacksize s in
        let m := fun a => if (nb <=? a) && (a <? nb + Z.min lim newsize) then mem s (a - nb + oldstack) else junk a in
        let m1 := erase m (nb + lim) (Z.to_nat (newsize - lim)) in
        Some (correctstack (St nb newsize (nb + newsize - EXTRA_STACK) (top s) (openupval s) (cis s) m1) oldstack)
    end.

  (* ldo.c:206-222; the error and the state in which it is thrown *)
  Definition luaD_growstack (s : state) (n : Z) (ans : answer) : outcome (state * option error) :=
    let size := stacksize s in
    if LUAI_MAXSTACK <? size then Ok (s, Some EErrErr)
    else
      do used <- int (top s - stack s);
      do a <- int (used + n);
      do needed <- int (a + EXTRA_STACK);
      do newsize <- int (2 * size);
      let newsize := if LUAI_MAXSTACK <? newsize then LUAI_MAXSTACK else newsize in
      let newsize := if newsize <? needed then needed else newsize in
      if LUAI_MAXSTACK <? newsize then
        match luaD_reallocstack s ERRORSTACKSIZE ans with
        | None => Ok (s, Some EMemory)
        | Some s' => Ok (s', Some EOverflow)
        end
      else
        match luaD_reallocstack s newsize ans with
        | None => Ok (s, Some EMemory)
        | Some s' => Ok (s', None)
        end.

  (* ldo.h:23-28 *)
  Definition luaD_checkstack (s : state) (n : Z) (ans : answer) : outcome (state * option error) :=
    if stack_last s - top s <=? n then luaD_growstack s n ans else Ok (s, None).

  (* lapi.c:101-122 *)
  Definition lua_checkstack (s : state) (n : Z) (ans : answer) : outcome (state * bool) :=
    do '(s1, res) <-
      if n <? stack_last s - top s then Ok (s, true)
      else
        do used <- int (top s - stack s);
        do inuse <- int (used + EXTRA_STACK);
        do room <- int (LUAI_MAXSTACK - n);
        if room <? inuse then Ok (s, false)
        else
          do '(s1, e) <- luaD_growstack s n ans;
          Ok (s1, match e with None => true | Some _ => false end);
    match cis s1 with
    | c :: cs =>
        if res && (ci_top c <? top s1 + n) then
          Ok (St (stack s1) (stacksize s1) (stack_last s1) (top s1) (openupval s1)
                 (CI (top s1 + n) (ci_func c) (is_lua c) (ci_u c) :: cs) (mem s1), res)
        else Ok (s1, res)
    | [] => UB
    end.

  (* ldo.c:225-233 *)
  Fixpoint limit (cs : list callinfo) (lim : Z) : Z :=
    match cs with
    | [] => lim
    | c :: cs' => limit cs' (if lim <? ci_top c then ci_top c else lim)
    end.

  Definition stackinuse (s : state) : Z := limit (cis s) (top s) - stack s + 1.

  (* ldo.c:236-253; None: a memory error *)
  Definition luaD_shrinkstack (s : state) (ans : answer) : outcome (option state) :=
    do inuse <- int (stackinuse s);
    do goodsize <- int (inuse + Z.quot inuse 8 + 2 * EXTRA_STACK);
    let goodsize := if LUAI_MAXSTACK <? goodsize then LUAI_MAXSTACK else goodsize in
    if (inuse <=? LUAI_MAXSTACK - EXTRA_STACK) && (goodsize <? stacksize s) then
      Ok (luaD_reallocstack s goodsize ans)
    else Ok (Some s).
End M.
