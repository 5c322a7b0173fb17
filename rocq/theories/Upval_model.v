(* Model of upvalues: lfunc.c, the creation of closures in lvm.c, reference counts in lgc.c,
   debug.upvaluejoin in lapi.c. A stack slot is a thread and an index, so that moving a stack
   (correctstack, ldo.c:173-186, which keeps every offset) changes nothing here. *)
Require Import ZArith List Bool.
From Verif Require Import Base.
Import ListNotations.
Open Scope Z_scope.

Inductive value := VNil | VFun (f : Z) | VData (z : Z).
Definition ttisfunction (v : value) : bool := match v with VFun _ => true | _ => false end.
(* lfunc.h UpVal: v points into a stack, or to the value kept in the upvalue itself *)
Inductive loc := Open (t i : Z) | Closed (v : value).
Record upv := UpV { u_ref : Z; u_flags : bool; u_loc : loc }.
(* stacks; the list openupval of every thread; upvalues by address; closures (None: collected) with
   their upvalues; the cached closure of every prototype *)
Record st := St { s_stk : Z -> Z -> value; s_open : Z -> list Z; s_up : Z -> option upv; s_clos : list (option (list Z)); s_cache : Z -> option nat }.

Definition put {A} (f : Z -> A) (a : Z) (x : A) : Z -> A := fun y => if y =? a then x else f y.
Definition set_stk (s : st) (t i : Z) (v : value) : st := St (put (s_stk s) t (put (s_stk s t) i v)) (s_open s) (s_up s) (s_clos s) (s_cache s).
Definition set_open (s : st) (t : Z) (l : list Z) : st := St (s_stk s) (put (s_open s) t l) (s_up s) (s_clos s) (s_cache s).
Definition set_up (s : st) (a : Z) (u : option upv) : st := St (s_stk s) (s_open s) (put (s_up s) a u) (s_clos s) (s_cache s).
Definition set_clos (s : st) (c : list (option (list Z))) : st := St (s_stk s) (s_open s) (s_up s) c (s_cache s).
Definition deref (s : st) (a : Z) : outcome upv := match s_up s a with Some u => Ok u | None => UB end.
(* the index in the stack of t that v points to; comparing it with anything else is undefined *)
Definition level_of (u : upv) (t : Z) : outcome Z := match u_loc u with Open t' i => if t' =? t then Ok i else UB | Closed _ => UB end.

(* 64-97 luaF_findupval: the walk along the list, which gives the upvalue or the list with the new one linked in *)
Fixpoint find_loop (s : st) (t level a : Z) (l : list Z) : outcome (Z + list Z) :=
  match l with
  | [] => Ok (inr [a])
  | p :: l' =>
    bind (deref s p) (fun u =>
    bind (level_of u t) (fun v =>
    if level <=? v then
      if (v =? level) && negb (u_flags u) then Ok (inl p)
      else bind (find_loop s t level a l') (fun r => Ok (match r with inl q => inl q | inr l'' => inr (p :: l'') end))
    else Ok (inr (a :: l))))
  end.
Definition luaF_findupval (s : st) (t level a : Z) : outcome (Z * st) :=
  bind (find_loop s t level a (s_open s t)) (fun r =>
  match r with
  | inl p => Ok (p, s)
  | inr l => Ok (a, set_up (set_open s t l) a (Some (UpV 0 false (Open t level))))
  end).
Definition incref (s : st) (a : Z) : outcome st := bind (deref s a) (fun u => Ok (set_up s a (Some (UpV (u_ref u + 1) (u_flags u) (u_loc u))))).

(* reading and writing through v: OP_GETUPVAL, OP_SETUPVAL *)
Definition get_up (s : st) (a : Z) : outcome value := bind (deref s a) (fun u => Ok (match u_loc u with Open t i => s_stk s t i | Closed v => v end)).
Definition put_up (s : st) (a : Z) (v : value) : outcome st :=
  bind (deref s a) (fun u => Ok (match u_loc u with Open t i => set_stk s t i v | Closed _ => set_up s a (Some (UpV (u_ref u) (u_flags u) (Closed v))) end)).

(* 156-178 luaF_close; call is calldeferredfunction. fuel: the length of the list when nothing is called *)
Definition NOCLOSINGMETH : Z := -1.
Definition CLOSEPROTECT : Z := -2.
Section CLOSE.
Variable call : st -> Z -> Z -> outcome (st * Z).       (* state, slot, status: the new state and status *)
Fixpoint luaF_close (fuel : nat) (s : st) (t level status : Z) : outcome (st * Z) :=
  match s_open s t with
  | [] => Ok (s, status)
  | a :: l =>
    bind (deref s a) (fun u =>
    bind (level_of u t) (fun v =>
    if level <=? v then
      match fuel with
      | O => OutOfFuel
      | S fuel =>
        let s := set_open s t l in
        if u_ref u =? 0 then
          let s := set_up s a None in
          if negb (status =? NOCLOSINGMETH) && u_flags u && ttisfunction (s_stk s t v)
          then bind (call s v status) (fun '(s, status) => luaF_close fuel s t level status)
          else luaF_close fuel s t level status
        else luaF_close fuel (set_up s a (Some (UpV (u_ref u) (u_flags u) (Closed (s_stk s t v))))) t level status
      end
    else Ok (s, status)))
  end.
End CLOSE.
Definition no_call (s : st) (v status : Z) : outcome (st * Z) := Ok (s, status).

(* lopcodes.h Upvaldesc *)
Record desc := Desc { d_instack : bool; d_idx : Z }.
Definition closure (s : st) (k : nat) : outcome (list Z) := match nth_error (s_clos s) k with Some (Some c) => Ok c | _ => UB end.
Definition idx (l : list Z) (i : Z) : outcome Z := if i <? 0 then UB else match nth_error l (Z.to_nat i) with Some a => Ok a | None => UB end.
(* lvm.c:957-973 getcached: v of both are compared; a closed v is the place in the upvalue itself *)
Definition same_v (a : Z) (u : upv) (b : Z) (w : upv) : bool :=
  match u_loc u, u_loc w with Open t i, Open t' i' => (t =? t') && (i =? i') | Closed _, Closed _ => a =? b | _, _ => false end.
Definition points_to (u : upv) (t i : Z) : bool := match u_loc u with Open t' i' => (t =? t') && (i =? i') | Closed _ => false end.
Fixpoint cached_ok (s : st) (c encup : list Z) (t base : Z) (ds : list desc) : outcome bool :=
  match ds, c with
  | [], _ => Ok true
  | d :: ds, a :: c =>
    bind (deref s a) (fun u =>
    bind (if d_instack d then Ok (points_to u t (base + d_idx d)) else bind (idx encup (d_idx d)) (fun b => bind (deref s b) (fun w => Ok (same_v a u b w)))) (fun ok =>
    if ok then cached_ok s c encup t base ds else Ok false))
  | _ :: _, [] => UB
  end.
(* lvm.c:982-1001 pushclosure; fresh gives the address of every upvalue that is allocated *)
Fixpoint fill (s : st) (encup : list Z) (t base : Z) (ds : list desc) (fresh : list Z) : outcome (list Z * st) :=
  match ds, fresh with
  | [], _ => Ok ([], s)
  | d :: ds, f :: fresh =>
    bind (if d_instack d then luaF_findupval s t (base + d_idx d) f else bind (idx encup (d_idx d)) (fun a => Ok (a, s))) (fun '(a, s) =>
    bind (incref s a) (fun s =>
    bind (fill s encup t base ds fresh) (fun '(l, s) => Ok (a :: l, s))))
  | _ :: _, [] => OutOfFuel
  end.
(* OP_CLOSURE; isblack: the prototype is black, and its cache is left alone *)
Definition op_closure (s : st) (p : Z) (enc : nat) (t base : Z) (ds : list desc) (fresh : list Z) (isblack : bool) : outcome (nat * st) :=
  bind (closure s enc) (fun encup =>
  bind (match s_cache s p with
        | None => Ok None
        | Some k => bind (closure s k) (fun c => bind (cached_ok s c encup t base ds) (fun ok => Ok (if ok then Some k else None)))
        end) (fun r =>
  match r with
  | Some k => Ok (k, s)
  | None =>
    bind (fill s encup t base ds fresh) (fun '(l, s) =>
    let k := length (s_clos s) in
    let s := set_clos s (s_clos s ++ [Some l]) in
    Ok (k, if isblack then s else St (s_stk s) (s_open s) (s_up s) (s_clos s) (put (s_cache s) p (Some k))))
  end)).

(* lgc.c:853-858 luaC_upvdeccount, 861-869 freeLclosure *)
Definition upvdeccount (s : st) (a : Z) : outcome st :=
  bind (deref s a) (fun u =>
  if (u_ref u - 1 =? 0) && negb (match u_loc u with Open _ _ => true | Closed _ => false end) then Ok (set_up s a None)
  else Ok (set_up s a (Some (UpV (u_ref u - 1) (u_flags u) (u_loc u))))).
Fixpoint decs (s : st) (l : list Z) : outcome st := match l with [] => Ok s | a :: l => bind (upvdeccount s a) (fun s => decs s l) end.
Fixpoint replace (l : list (option (list Z))) (k : nat) (x : option (list Z)) : list (option (list Z)) :=
  match l, k with [], _ => [] | _ :: l, O => x :: l | y :: l, S k => y :: replace l k x end.
Fixpoint replaceZ (l : list Z) (k : nat) (x : Z) : list Z := match l, k with [], _ => [] | _ :: l, O => x :: l | y :: l, S k => y :: replaceZ l k x end.
(* the closure is swept; the caches that held it were cleared when their prototypes were marked (lgc.c:654) *)
Definition freeLclosure (s : st) (k : nat) : outcome st :=
  bind (closure s k) (fun c =>
  bind (decs s c) (fun s =>
  Ok (St (s_stk s) (s_open s) (s_up s) (replace (s_clos s) k None) (fun p => match s_cache s p with Some k' => if Nat.eqb k k' then None else Some k' | None => None end)))).
(* lapi.c:1678-1692 lua_upvaluejoin, the types being equal *)
Definition upvaluejoin (s : st) (k1 : nat) (n1 : Z) (k2 : nat) (n2 : Z) : outcome st :=
  bind (closure s k1) (fun c1 => bind (idx c1 n1) (fun a1 =>
  bind (closure s k2) (fun c2 => bind (idx c2 n2) (fun a2 =>
  if a1 =? a2 then Ok s
  else
    bind (upvdeccount s a1) (fun s =>
    let s := set_clos s (replace (s_clos s) k1 (Some (replaceZ c1 (Z.to_nat n1) a2))) in
    incref s a2))))).

(* what a program does to its variables *)
Inductive op :=
| SetReg (t i : Z) (v : value)                                        (* an assignment to a register *)
| GetReg (t i : Z)
| GetUp (k : nat) (n : Z)
| SetUp (k : nat) (n : Z) (v : value)
| Closure (p : Z) (enc : nat) (t base : Z) (ds : list desc) (fresh : list Z) (isblack : bool)
| Defer (t i a : Z)                                                   (* OP_RAVI_DEFER, lvm.c:2609-2614 *)
| Close (t level : Z)                                                 (* luaF_close *)
| Free (k : nat)
| Join (k1 : nat) (n1 : Z) (k2 : nat) (n2 : Z)
| NewVar (t i : Z) (v : value).                                       (* a register is taken for a new variable: just a write *)
Definition step (s : st) (o : op) : outcome (st * option value) :=
  match o with
  | SetReg t i v | NewVar t i v => Ok (set_stk s t i v, None)
  | GetReg t i => Ok (s, Some (s_stk s t i))
  | GetUp k n => bind (closure s k) (fun c => bind (idx c n) (fun a => bind (get_up s a) (fun v => Ok (s, Some v))))
  | SetUp k n v => bind (closure s k) (fun c => bind (idx c n) (fun a => bind (put_up s a v) (fun s => Ok (s, None))))
  | Closure p enc t base ds fresh b => bind (op_closure s p enc t base ds fresh b) (fun '(k, s) => Ok (s, Some (VFun (Z.of_nat k))))
  | Defer t i a => bind (luaF_findupval s t i a) (fun '(a, s) => bind (deref s a) (fun u => Ok (set_stk (set_up s a (Some (UpV (u_ref u) true (u_loc u)))) t i VNil, None)))
  | Close t level => bind (luaF_close no_call (length (s_open s t)) s t level NOCLOSINGMETH) (fun '(s, _) => Ok (s, None))
  | Free k => bind (freeLclosure s k) (fun s => Ok (s, None))
  | Join k1 n1 k2 n2 => bind (upvaluejoin s k1 n1 k2 n2) (fun s => Ok (s, None))
  end.
